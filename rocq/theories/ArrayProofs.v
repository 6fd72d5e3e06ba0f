(** Lemmas about the Array model. *)
From Coq Require Import List NArith Arith Bool Lia Sorted.
From Verif Require Import PipeModel PipeProofs PipeProps ArrayModel.
Import ListNotations.
Open Scope N_scope.

Section P.
Context {A : Type}.
Implicit Types (a : arr A) (L : list (N * A)).

(* What the entries should be, oldest write first. *)
Definition without (i : N) L : list (N * A) := filter (fun e => negb (fst e =? i)) L.

Record AI a L : Prop := {
  I_nd : NoDup (map fst L);
  I_valid : forall i, a_valid a i = true <-> In i (map fst L);
  I_nv : a_nv a = N.of_nat (length L);
  I_aged : a_ty a = true -> a_aged a = rev (map fst L);
  I_lt : forall i, In i (map fst L) -> i < a_n a;
  I_data : forall i x, In (i, x) L -> a_data a i = Some x;
  I_rel : a_ty a = true -> forall k i, nth_error (map fst L) k = Some i -> a_rel a i = N.of_nat k;
  I_abs : StronglySorted N.lt (map (a_abs a) (map fst L));
  I_next : forall i, In i (map fst L) -> a_abs a i < a_next a;
  I_n : a_n a < 2 ^ 32
}.

Lemma filter_rev : forall {B} (f : B -> bool) l, filter f (rev l) = rev (filter f l).
Proof.
  induction l as [|x l IH]; auto. simpl. rewrite filter_app, IH. simpl. destruct (f x); simpl; auto. rewrite app_nil_r. auto.
Qed.
Lemma unlink_filter : forall i l, NoDup l -> unlink i l = filter (fun x => negb (x =? i)) l.
Proof.
  induction l as [|x l IH]; intros ND; auto. inversion ND; subst. simpl. destruct (N.eqb_spec x i) as [->|]; simpl; [|rewrite IH; auto].
  symmetry. clear - H1. induction l as [|y l IH]; auto. simpl. destruct (N.eqb_spec y i) as [->|]; simpl.
  - exfalso. apply H1. left; auto.
  - rewrite IH; auto. intros K. apply H1. right; auto.
Qed.
Lemma unlink_notin : forall i l, ~ In i l -> unlink i l = l.
Proof. induction l as [|x l IH]; intros H; auto. simpl. destruct (N.eqb_spec x i) as [->|]; [exfalso; apply H; left; auto|]. rewrite IH; auto. intros K; apply H; right; auto. Qed.
Lemma map_without : forall i L, map fst (without i L) = filter (fun x => negb (x =? i)) (map fst L).
Proof. induction L as [|[j x] L IH]; auto. unfold without in *. simpl. destruct (j =? i); simpl; rewrite IH; auto. Qed.
Lemma in_without : forall i L j, In j (map fst (without i L)) <-> In j (map fst L) /\ j <> i.
Proof. intros. rewrite map_without, filter_In. destruct (N.eqb_spec j i); simpl; intuition. Qed.
Lemma In_without : forall i L e, In e (without i L) <-> In e L /\ fst e <> i.
Proof. intros. unfold without. rewrite filter_In. destruct (N.eqb_spec (fst e) i); simpl; intuition. Qed.
Lemma len_without : forall i L, NoDup (map fst L) -> In i (map fst L) -> S (length (without i L)) = length L.
Proof.
  induction L as [|[j x] L IH]; intros ND H; [contradiction|]. simpl in ND. inversion ND; subst. unfold without in *. simpl in *.
  destruct (N.eqb_spec j i) as [->|NE]; simpl.
  - f_equal. clear - H2. induction L as [|[k y] L IH]; auto. simpl in *. destruct (N.eqb_spec k i) as [->|]; simpl; [exfalso; auto|]. rewrite IH; auto.
  - rewrite IH; auto. destruct H; [contradiction|auto].
Qed.
Lemma without_notin : forall i L, ~ In i (map fst L) -> without i L = L.
Proof. induction L as [|[j x] L IH]; intros H; auto. unfold without in *. simpl in *. destruct (N.eqb_spec j i) as [->|]; simpl; [exfalso; auto|]. rewrite IH; auto. Qed.
Lemma NoDup_filter' : forall {B} (f : B -> bool) l, NoDup l -> NoDup (filter f l).
Proof. intros. apply NoDup_filter. auto. Qed.

Lemma rel_loop_ok : forall valid l i rel, (forall x, In x l -> valid x = true) -> NoDup l -> i + N.of_nat (length l) < 2 ^ 32 ->
  exists rel', rel_loop valid l i rel = Some rel' /\ (forall k x, nth_error l k = Some x -> rel' x = i + N.of_nat k) /\
               (forall x, ~ In x l -> rel' x = rel x).
Proof.
  intros valid. induction l as [|y l IH]; intros i rel HV ND HB.
  - exists rel. split; auto. split; auto. intros [|k] x K; discriminate.
  - inversion ND; subst. cbn [rel_loop]. rewrite HV by (left; auto). cbn [length] in HB. rewrite Nat2N.inj_succ in HB.
    rewrite N.mod_small by lia. destruct (IH (i + 1) (at_upd rel y i)) as (rel' & E & H' & HO); auto; [intros; apply HV; right; auto|lia|].
    exists rel'. split; auto. split.
    + intros [|k] x K; simpl in K.
      * injection K as <-. rewrite HO by auto. unfold at_upd. rewrite N.eqb_refl. lia.
      * rewrite (H' k x K). lia.
    + intros x Hx. rewrite HO by (intros K; apply Hx; right; auto). unfold at_upd. destruct (N.eqb_spec x y) as [->|]; auto. exfalso. apply Hx. left; auto.
Qed.

Lemma lt_nodup : forall n (l : list N), NoDup l -> (forall i, In i l -> i < n) -> N.of_nat (length l) <= n.
Proof.
  intros n l ND H. assert (K : (length (map N.to_nat l) <= length (seq 0 (N.to_nat n)))%nat).
  { apply NoDup_incl_length.
    - apply NoDup_map_in; auto. intros x y _ _ E. lia.
    - intros x Hx. apply in_map_iff in Hx as (y & <- & Hy). apply in_seq. specialize (H y Hy). lia. }
  rewrite map_length, seq_length in K. lia.
Qed.
Lemma AI_len : forall a L, AI a L -> N.of_nat (length L) <= a_n a.
Proof. intros a L I. rewrite <- (map_length fst L). apply lt_nodup; [apply I|apply I]. Qed.

Lemma SS_filter : forall {B} (R : B -> B -> Prop) f l, StronglySorted R l -> StronglySorted R (filter f l).
Proof.
  induction 1; simpl; [constructor|]. destruct (f a); auto. constructor; auto. rewrite Forall_forall in *. intros x Hx. apply filter_In in Hx as [Hx _]. auto.
Qed.
Lemma SS_map_filter : forall (g : N -> N) f l, StronglySorted N.lt (map g l) -> StronglySorted N.lt (map g (filter f l)).
Proof.
  induction l as [|x l IH]; simpl; intros H; [constructor|]. inversion H; subst. destruct (f x); simpl; auto. constructor; auto.
  rewrite Forall_forall in *. intros y Hy. apply in_map_iff in Hy as (z & <- & Hz). apply filter_In in Hz as [Hz _]. apply H3, in_map. auto.
Qed.
Lemma SS_snoc : forall (l : list N) x, StronglySorted N.lt l -> (forall y, In y l -> y < x) -> StronglySorted N.lt (l ++ [x]).
Proof.
  induction 1; intros K; simpl; [constructor; constructor|]. constructor.
  - apply IHStronglySorted. intros y Hy. apply K. right; auto.
  - apply Forall_app. split; auto. constructor; [apply K; left; auto|constructor].
Qed.
Lemma nth_nodup : forall {B} (l : list B) j k x, NoDup l -> nth_error l j = Some x -> nth_error l k = Some x -> j = k.
Proof. intros B l j k x ND Hj Hk. apply (proj1 (NoDup_nth_error l) ND); [|congruence]. apply nth_error_Some. congruence. Qed.

Lemma erase_ok : forall a L i, AI a L ->
  match a_erase a i with
  | Some a' => In i (map fst L) /\ AI a' (without i L) /\ a_next a' = a_next a /\ a_n a' = a_n a /\ a_ty a' = a_ty a
  | None => ~ In i (map fst L) end.
Proof.
  intros a L i I. pose proof (AI_len a L I) as HL. pose proof I as [ND V NV AG LT D R AB NX HN]. unfold a_erase.
  destruct (a_valid a i) eqn:EV; [|intros K; apply V in K; congruence]. apply V in EV.
  pose proof (len_without i L ND EV) as EL. destruct (N.ltb_spec 0 (a_nv a)); [|lia]. cbv zeta.
  assert (NDw : NoDup (map fst (without i L))) by (rewrite map_without; apply NoDup_filter; auto).
  assert (NVw : dec32 (a_nv a) = N.of_nat (length (without i L))) by (rewrite dec_s by lia; lia).
  assert (K : forall aged rel, (a_ty a = true -> aged = rev (map fst (without i L))) ->
      (a_ty a = true -> forall k j, nth_error (map fst (without i L)) k = Some j -> rel j = N.of_nat k) ->
      AI (mkA (a_n a) (a_ty a) (at_upd (a_valid a) i false) (dec32 (a_nv a)) aged (a_data a) (a_abs a) rel (a_next a) (a_cons a) (a_dest a + 1)) (without i L)).
  { intros aged rel H1 H2. constructor; cbn; auto.
    - intros j. rewrite in_without. unfold at_upd. destruct (N.eqb_spec j i); [split; [discriminate|tauto]|]. rewrite V. tauto.
    - intros j Hj. apply in_without in Hj as [Hj _]. auto.
    - intros j x Hj. apply In_without in Hj as [Hj _]. auto.
    - rewrite map_without. apply SS_map_filter; auto.
    - intros j Hj. apply in_without in Hj as [Hj _]. auto. }
  destruct (a_ty a) eqn:ET.
  - rewrite AG by auto. rewrite unlink_filter by (apply NoDup_rev; auto). rewrite filter_rev, <- map_without.
    unfold update_rel. rewrite rev_involutive.
    destruct (rel_loop_ok (a_valid a) (map fst (without i L)) 0 (a_rel a)) as (rel & -> & H1 & _); auto.
    + intros x Hx. apply in_without in Hx as [Hx _]. apply V; auto.
    + rewrite map_length. lia.
    + cbn [option_map]. split; [auto|]. split; [|auto]. apply K; [auto|]. intros _ k j Hj. rewrite (H1 k j Hj). lia.
  - split; [auto|]. split; [|auto]. apply K; intros; discriminate.
Qed.

Lemma write_ok : forall a L i x, AI a L -> a_next a + 1 < 2 ^ 64 ->
  match a_write a i x with
  | Some a' => i < a_n a /\ AI a' (without i L ++ [(i, x)]) /\ a_next a' = a_next a + 1 /\ a_n a' = a_n a /\ a_ty a' = a_ty a
  | None => a_n a <= i end.
Proof.
  intros a L i x I HX. pose proof (AI_len a L I) as HL. pose proof I as [ND V NV AG LT D R AB NX HN]. unfold a_write.
  destruct (N.ltb_spec i (a_n a)) as [Hi|]; [|auto]. cbv zeta.
  assert (NDw : NoDup (map fst (without i L))) by (rewrite map_without; apply NoDup_filter; auto).
  assert (NDi : NoDup (map fst (without i L ++ [(i, x)]))).
  { rewrite map_app. cbn [map fst]. apply NoDup_rev in NDw. rewrite <- (rev_involutive (map fst (without i L) ++ [i])). apply NoDup_rev.
    rewrite rev_app_distr. cbn [rev app]. constructor; auto. rewrite <- in_rev, in_without. tauto. }
  assert (LE : forall y, In y (map fst (without i L ++ [(i, x)])) <-> y = i \/ In y (map fst L)).
  { intros y. rewrite map_app, in_app_iff, in_without. cbn. destruct (N.eq_dec y i); intuition. }
  assert (LEN : N.of_nat (length (without i L ++ [(i, x)])) <= a_n a).
  { rewrite <- (map_length fst). apply lt_nodup; auto. intros y Hy. apply LE in Hy as [->|Hy]; auto. }
  assert (NVw : inc32 (if a_valid a i then dec32 (a_nv a) else a_nv a) = N.of_nat (length (without i L ++ [(i, x)]))).
  { rewrite app_length in *. cbn [length] in *. destruct (a_valid a i) eqn:EV.
    - apply V in EV. pose proof (len_without i L ND EV). rewrite dec_s by lia. rewrite inc_s by lia. lia.
    - assert (~ In i (map fst L)) by (intros K; apply V in K; congruence). rewrite without_notin in * by auto. rewrite inc_s by lia. lia. }
  assert (AGw : a_ty a = true -> (if a_valid a i && a_ty a then unlink i (a_aged a) else a_aged a) = rev (map fst (without i L))).
  { intros T. rewrite T, andb_true_r, AG by auto. destruct (a_valid a i) eqn:EV.
    - rewrite unlink_filter by (apply NoDup_rev; auto). rewrite filter_rev, <- map_without. auto.
    - assert (~ In i (map fst L)) by (intros K; apply V in K; congruence). rewrite without_notin by auto. auto. }
  assert (K : forall aged rel, (a_ty a = true -> aged = rev (map fst (without i L ++ [(i, x)]))) ->
      (a_ty a = true -> forall k j, nth_error (map fst (without i L ++ [(i, x)])) k = Some j -> rel j = N.of_nat k) ->
      AI (mkA (a_n a) (a_ty a) (at_upd (a_valid a) i true) (inc32 (if a_valid a i then dec32 (a_nv a) else a_nv a)) aged
            (at_upd (a_data a) i (Some x)) (at_upd (a_abs a) i (a_next a)) rel ((a_next a + 1) mod 2 ^ 64) (a_cons a + 1) (a_dest a)) (without i L ++ [(i, x)])).
  { intros aged rel H1 H2. constructor; cbn [a_n a_ty a_valid a_nv a_aged a_data a_abs a_rel a_next]; auto.
    - intros j. rewrite LE. unfold at_upd. destruct (N.eqb_spec j i); [tauto|]. rewrite V. tauto.
    - intros j Hj. apply LE in Hj as [->|Hj]; auto.
    - intros j y Hj. apply in_app_iff in Hj as [Hj|[Hj|[]]].
      + apply In_without in Hj as [Hj NE]. unfold at_upd. cbn in NE. destruct (N.eqb_spec j i); [contradiction|auto].
      + injection Hj as <- <-. unfold at_upd. rewrite N.eqb_refl. auto.
    - rewrite map_app. cbn [map fst]. rewrite map_app. cbn [map].
      replace (map (at_upd (a_abs a) i (a_next a)) (map fst (without i L))) with (map (a_abs a) (map fst (without i L))).
      + unfold at_upd at 1. rewrite N.eqb_refl. apply SS_snoc.
        * rewrite map_without. apply SS_map_filter; auto.
        * intros y Hy. apply in_map_iff in Hy as (z & <- & Hz). apply in_without in Hz as [Hz _]. auto.
      + apply map_ext_in. intros y Hy. apply in_without in Hy as [_ Hy]. unfold at_upd. destruct (N.eqb_spec y i); [contradiction|auto].
    - intros j Hj. rewrite N.mod_small by lia. unfold at_upd. destruct (N.eqb_spec j i); [lia|]. apply LE in Hj as [Hj|Hj]; [contradiction|]. specialize (NX j Hj). lia. }
  destruct (a_ty a) eqn:ET.
  - rewrite AGw by auto. unfold update_rel. cbn [rev]. rewrite rev_involutive.
    assert (EM : map fst (without i L) ++ [i] = map fst (without i L ++ [(i, x)])) by (rewrite map_app; reflexivity).
    rewrite EM.
    destruct (rel_loop_ok (at_upd (a_valid a) i true) (map fst (without i L ++ [(i, x)])) 0 (at_upd (a_rel a) i 0)) as (rel & -> & H1 & _); auto.
    + intros y Hy. unfold at_upd. destruct (N.eqb_spec y i); auto. apply V. apply LE in Hy as [Hy|Hy]; [contradiction|auto].
    + rewrite map_length. lia.
    + cbn [option_map]. split; [auto|]. split; [|cbn; split; [apply N.mod_small; lia|auto]]. apply K.
      * intros _. rewrite map_app, rev_app_distr. reflexivity.
      * intros _ k j Hj. rewrite (H1 k j Hj). lia.
  - split; [auto|]. split; [|cbn; split; [apply N.mod_small; lia|auto]]. apply K; intros; discriminate.
Qed.

Lemma clear_ok : forall a L, AI a L -> AI (a_clear a) [].
Proof.
  intros a L I. destruct I. constructor; cbn; auto; try constructor; try tauto; try discriminate.
  intros _ [|k] i K; discriminate.
Qed.
Lemma init_AI : forall n ty, n < 2 ^ 32 -> AI (a_init n ty) [].
Proof. intros. constructor; cbn; auto; try constructor; try tauto; try discriminate. intros _ [|k] i K; discriminate. Qed.

(* The search loops of FrontArray. *)
Lemma front_loop_ok : forall valid k i, match front_loop valid k i with
  | Some j => i <= j < i + N.of_nat k /\ valid j = false /\ forall m, i <= m < j -> valid m = true
  | None => forall m, i <= m < i + N.of_nat k -> valid m = true end.
Proof.
  induction k; intros i; cbn [front_loop]; [intros; lia|]. destruct (valid i) eqn:E.
  - specialize (IHk (i + 1)). destruct (front_loop valid k (i + 1)) as [j|].
    + destruct IHk as (H1 & H2 & H3). split; [lia|]. split; auto. intros m Hm. destruct (N.eq_dec m i) as [->|]; auto. apply H3. lia.
    + intros m Hm. destruct (N.eq_dec m i) as [->|]; auto. apply IHk. lia.
  - split; [lia|]. split; auto. intros; lia.
Qed.
Lemma back_loop_ok : forall valid k, match back_loop valid k with
  | Some j => j < N.of_nat k /\ valid j = false /\ forall m, j < m < N.of_nat k -> valid m = true
  | None => forall m, m < N.of_nat k -> valid m = true end.
Proof.
  induction k; cbn [back_loop]; [intros; lia|]. destruct (valid (N.of_nat k)) eqn:E.
  - destruct (back_loop valid k) as [j|].
    + destruct IHk as (H1 & H2 & H3). split; [lia|]. split; auto. intros m Hm. destruct (N.eq_dec m (N.of_nat k)) as [->|]; auto. apply H3. lia.
    + intros m Hm. destruct (N.eq_dec m (N.of_nat k)) as [->|]; auto. apply IHk. lia.
  - split; [lia|]. split; auto. intros; lia.
Qed.

Lemma before_rev : forall i (l : list N) prev, NoDup l -> In i l -> before prev i l = match nth_error l 0 with Some j => if j =? i then prev else before (Some j) i (tl l) | None => prev end.
Proof. destruct l; simpl; auto. Qed.
Lemma before_nth : forall l k i prev, NoDup l -> nth_error l k = Some i -> before prev i l = match k with O => prev | S k' => nth_error l k' end.
Proof.
  induction l as [|x l IH]; intros k i prev ND H; [destruct k; discriminate|]. inversion ND; subst. simpl. destruct k as [|k]; simpl in H.
  - injection H as ->. rewrite N.eqb_refl. auto.
  - destruct (N.eqb_spec x i) as [->|NE]; [apply nth_error_In in H; contradiction|]. rewrite (IH k i (Some x)) by auto. destruct k; auto.
Qed.
Lemma nth_rev : forall {B} (l : list B) k, (k < length l)%nat -> nth_error (rev l) k = nth_error l (length l - S k).
Proof.
  induction l as [|x l IH]; intros k H; [simpl in H; lia|]. simpl in H. simpl rev. simpl length.
  destruct (Nat.eq_dec k (length l)) as [->|NE].
  - rewrite nth_error_app2 by (rewrite rev_length; lia). rewrite rev_length, Nat.sub_diag. replace (S (length l) - S (length l))%nat with 0%nat by lia. reflexivity.
  - rewrite nth_error_app1 by (rewrite rev_length; lia). rewrite IH by lia. replace (S (length l) - S k)%nat with (S (length l - S k)) by lia. reflexivity.
Qed.
Lemma next_oldest_ok : forall a L k i, AI a L -> a_ty a = true -> nth_error (map fst L) k = Some i -> a_next_oldest a i = nth_error (map fst L) (S k).
Proof.
  intros a L k i I T H. unfold a_next_oldest. rewrite (I_aged _ _ I T). set (l := map fst L) in *.
  assert (ND : NoDup l) by apply I. assert (HK : (k < length l)%nat) by (apply nth_error_Some; congruence).
  assert (HR : nth_error (rev l) (length l - S k) = Some i) by (rewrite nth_rev by lia; replace (length l - S (length l - S k))%nat with k by lia; auto).
  rewrite (before_nth (rev l) (length l - S k) i None) by (auto; apply NoDup_rev; auto).
  destruct (length l - S k)%nat as [|m] eqn:E.
  - symmetry. apply nth_error_None. lia.
  - rewrite nth_rev by lia. f_equal. lia.
Qed.
Lemma oldest_ok : forall a L k, AI a L -> a_ty a = true -> a_oldest a (N.of_nat k) = nth_error (map fst L) k.
Proof.
  intros a L k I T. unfold a_oldest. rewrite T, (I_aged _ _ I T), rev_involutive, (I_nv _ _ I), Nat2N.id. cbn [andb].
  destruct (N.ltb_spec (N.of_nat k) (N.of_nat (length L))).
  - destruct (nth_error (map fst L) k) as [i|] eqn:E; auto. assert (V : a_valid a i = true) by (apply (I_valid _ _ I); eapply nth_error_In; eauto). rewrite V. auto.
  - symmetry. apply nth_error_None. rewrite map_length. lia.
Qed.
Lemma youngest_ok : forall a L k, AI a L -> a_ty a = true -> a_youngest a (N.of_nat k) = nth_error (rev (map fst L)) k.
Proof.
  intros a L k I T. unfold a_youngest. rewrite T, (I_aged _ _ I T), (I_nv _ _ I), Nat2N.id. cbn [andb].
  destruct (N.ltb_spec (N.of_nat k) (N.of_nat (length L))).
  - destruct (nth_error (rev (map fst L)) k) as [i|] eqn:E; auto.
    assert (V : a_valid a i = true). { apply (I_valid _ _ I). apply nth_error_In in E. apply in_rev in E. auto. } rewrite V. auto.
  - symmetry. apply nth_error_None. rewrite rev_length, map_length. lia.
Qed.

(* The aged walk. *)
Lemma walk_from : forall a L, AI a L -> a_ty a = true -> a_n a + 1 < 2 ^ 32 -> forall m k i fuel,
  nth_error (map fst L) k = Some i -> (length L = k + S m)%nat -> (m + 1 < fuel)%nat ->
  a_walk_from fuel a i = Some (skipn k (map fst L)).
Proof.
  intros a L I T HN. induction m as [|m IH]; intros k i fuel Hk HL HF.
  - destruct fuel as [|fuel]; [lia|]. cbn [a_walk_from].
    assert (Hi : i < a_n a) by (apply (I_lt _ _ I); eapply nth_error_In; eauto).
    assert (HI : a_invalid a = a_n a + 1) by (apply N.mod_small; auto). rewrite HI. destruct (N.eqb_spec i (a_n a + 1)); [lia|].
    unfold a_incr. rewrite HI. destruct (N.eqb_spec i (a_n a + 1)); [lia|]. rewrite (next_oldest_ok a L k i) by auto.
    assert (E : nth_error (map fst L) (S k) = None) by (apply nth_error_None; rewrite map_length; lia). rewrite E.
    rewrite (oldest_ok a L 0 I T : a_oldest a 0 = _). destruct (nth_error (map fst L) 0) as [b|] eqn:EB.
    + unfold a_abegin. rewrite (I_nv _ _ I). destruct (N.eqb_spec (N.of_nat (length L)) 0); [lia|].
      rewrite (oldest_ok a L 0 I T : a_oldest a 0 = _), EB. rewrite N.eqb_refl.
      destruct fuel as [|fuel]; [lia|]. cbn [a_walk_from]. rewrite HI, N.eqb_refl. cbn [option_map].
      f_equal. assert (EL : (length (skipn k (map fst L)) = 1)%nat) by (rewrite skipn_length, map_length; lia).
      destruct (skipn k (map fst L)) as [|y [|]] eqn:ES; try discriminate. f_equal.
      assert (K : nth_error (skipn k (map fst L)) 0 = Some y) by (rewrite ES; auto).
      rewrite <- (firstn_skipn k (map fst L)) in Hk. rewrite nth_error_app2 in Hk by (rewrite firstn_length; lia).
      rewrite firstn_length, map_length, Nat.min_l, Nat.sub_diag in Hk by lia. congruence.
    + exfalso. apply nth_error_None in EB. rewrite map_length in EB. lia.
  - destruct fuel as [|fuel]; [lia|]. cbn [a_walk_from].
    assert (Hi : i < a_n a) by (apply (I_lt _ _ I); eapply nth_error_In; eauto).
    assert (HI : a_invalid a = a_n a + 1) by (apply N.mod_small; auto). rewrite HI. destruct (N.eqb_spec i (a_n a + 1)); [lia|].
    unfold a_incr. rewrite HI. destruct (N.eqb_spec i (a_n a + 1)); [lia|]. rewrite (next_oldest_ok a L k i) by auto.
    destruct (nth_error (map fst L) (S k)) as [j|] eqn:E; [|exfalso; apply nth_error_None in E; rewrite map_length in E; lia].
    unfold a_abegin. rewrite (I_nv _ _ I). destruct (N.eqb_spec (N.of_nat (length L)) 0); [lia|].
    rewrite (oldest_ok a L 0 I T : a_oldest a 0 = _). destruct (nth_error (map fst L) 0) as [b|] eqn:EB.
    + destruct (N.eqb_spec j b) as [->|]; [exfalso; pose proof (nth_nodup _ _ _ _ (I_nd _ _ I) E EB); lia|].
      assert (V : a_valid a j = true) by (apply (I_valid _ _ I); eapply nth_error_In; eauto). rewrite V.
      rewrite (IH (S k) j fuel) by (auto; lia). cbn [option_map]. f_equal.
      clear - Hk. revert Hk. generalize (map fst L). induction k; intros [|y l] H; try discriminate; simpl in *; auto. injection H as ->. auto.
    + exfalso. apply nth_error_None in EB. rewrite map_length in EB. lia.
Qed.
End P.
