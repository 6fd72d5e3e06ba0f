(** Lemmas about CherryModel. *)
From Coq Require Import List NArith Arith Bool Lia Sorted.
From Verif Require Import LayoutModel StorageModel CherryModel CherrySpec.
Import ListNotations.
Open Scope N_scope.

Notation two64 := 18446744073709551616.

Lemma w64_small : forall x, x < two64 -> CherryModel.w64 x = x.
Proof. intros x H. unfold CherryModel.w64. apply N.mod_small. exact H. Qed.
Lemma sub64_le : forall a b, b <= a -> a < two64 -> sub64 a b = a - b.
Proof.
  intros a b H L. unfold sub64, CherryModel.w64.
  replace (a + (two64 - b)) with (a - b + 1 * two64) by lia. rewrite N.mod_add by lia. apply N.mod_small. lia.
Qed.
Lemma len_app : forall A (l l' : list A), N.of_nat (length (l ++ l')) = N.of_nat (length l) + N.of_nat (length l').
Proof. intros A l l'. rewrite app_length. lia. Qed.

(** Rows that cover the ticks [ts], numbered from [a] up to [b]. *)
Inductive covers : N -> list run -> list N -> N -> Prop :=
| cov_nil : forall a, covers a [] [] a
| cov_cons : forall a k t l ts b, covers (a + N.of_nat (S k)) l ts b ->
    covers a (mkR a (a + N.of_nat k) t :: l) (repeat t (S k) ++ ts) b.

Lemma covers_end : forall a l ts b, covers a l ts b -> b = a + N.of_nat (length ts).
Proof.
  intros a l ts b C. induction C as [a|a k t l ts b C IH]; [cbn; lia|].
  rewrite IH, app_length, repeat_length. lia.
Qed.
Lemma covers_nil : forall a ts b, covers a [] ts b -> ts = [].
Proof. intros a ts b C. inversion C. reflexivity. Qed.
Lemma covers_app : forall l1 l2 a ts b, covers a (l1 ++ l2) ts b ->
  exists ts1 ts2 m, ts = ts1 ++ ts2 /\ covers a l1 ts1 m /\ covers m l2 ts2 b.
Proof.
  induction l1 as [|r l1 IH]; intros l2 a ts b C.
  - exists [], ts, a. split; [reflexivity|]. split; [constructor|exact C].
  - cbn [app] in C. inversion C; subst. destruct (IH _ _ _ _ H4) as [t1 [t2 [m [E [C1 C2]]]]].
    exists (repeat t (S k) ++ t1), t2, m. split; [rewrite E, app_assoc; reflexivity|]. split; [constructor; exact C1|exact C2].
Qed.
Lemma push_covers : forall l a ts b t, covers a l ts b -> covers a (push_run l b t) (ts ++ [t]) (b + 1).
Proof.
  induction l as [|r l IH]; intros a ts b t C.
  - inversion C; subst. cbn. replace (mkR b b t) with (mkR b (b + N.of_nat 0) t) by (f_equal; lia).
    apply (cov_cons b 0%nat t [] [] (b + 1)). replace (b + N.of_nat 1) with (b + 1) by lia. constructor.
  - inversion C; subst. destruct l as [|r' l'].
    + inversion H4; subst. cbn [push_run r_tick r_start]. destruct (t0 =? t) eqn:E.
      * apply N.eqb_eq in E. subst t0. rewrite app_nil_r.
        replace (repeat t (S k) ++ [t]) with (repeat t (S (S k)) ++ []) by (rewrite app_nil_r; exact (repeat_cons (S k) t)).
        replace (a + N.of_nat (S k)) with (a + N.of_nat (S k)) by reflexivity.
        apply (cov_cons a (S k) t [] [] (a + N.of_nat (S k) + 1)).
        replace (a + N.of_nat (S (S k))) with (a + N.of_nat (S k) + 1) by lia. constructor.
      * rewrite app_nil_r. apply cov_cons.
        replace (mkR (a + N.of_nat (S k)) (a + N.of_nat (S k)) t) with (mkR (a + N.of_nat (S k)) (a + N.of_nat (S k) + N.of_nat 0) t) by (f_equal; lia).
        apply (cov_cons (a + N.of_nat (S k)) 0%nat t [] [] (a + N.of_nat (S k) + 1)).
        replace (a + N.of_nat (S k) + N.of_nat 1) with (a + N.of_nat (S k) + 1) by lia. constructor.
    + change (push_run (mkR a (a + N.of_nat k) t0 :: r' :: l') b t) with (mkR a (a + N.of_nat k) t0 :: push_run (r' :: l') b t).
      rewrite <- app_assoc. apply cov_cons. apply IH. exact H4.
Qed.

Notation apart := (Sorted (fun r r' => r_tick r <> r_tick r')).

Lemma push_nonempty : forall l a t, push_run l a t <> [].
Proof. destruct l as [|r [|r' l]]; intros a t; cbn; try discriminate. destruct (r_tick r =? t); discriminate. Qed.
Lemma push_head : forall l r a t, l <> [] -> HdRel (fun r r' => r_tick r <> r_tick r') r l ->
  HdRel (fun r r' => r_tick r <> r_tick r') r (push_run l a t).
Proof.
  intros [|x [|y l]] r a t N H; [congruence| |].
  - inversion H; subst. cbn. destruct (r_tick x =? t); constructor; cbn; assumption.
  - inversion H; subst. cbn. constructor. assumption.
Qed.
Lemma push_apart : forall l a t, apart l -> apart (push_run l a t).
Proof.
  induction l as [|r l IH]; intros a t A; [repeat constructor|].
  destruct l as [|r' l'].
  - cbn. destruct (r_tick r =? t) eqn:E; [repeat constructor|]. apply N.eqb_neq in E. repeat constructor. exact E.
  - change (push_run (r :: r' :: l') a t) with (r :: push_run (r' :: l') a t). inversion A; subst.
    constructor; [apply IH; assumption|]. apply push_head; [discriminate|assumption].
Qed.
Lemma push_app : forall l1 l2 a t, l2 <> [] -> push_run (l1 ++ l2) a t = l1 ++ push_run l2 a t.
Proof.
  induction l1 as [|r l1 IH]; intros l2 a t N; [reflexivity|]. cbn [app].
  rewrite <- IH by exact N. destruct (l1 ++ l2) as [|x y] eqn:E; [|reflexivity].
  apply app_eq_nil in E. destruct E. congruence.
Qed.
Lemma pushes_app : forall S (cks : list (chk S)) l1 l2 a, l2 <> [] -> push_runs (l1 ++ l2) a cks = l1 ++ push_runs l2 a cks.
Proof.
  intros S cks. induction cks as [|c cks IH]; intros l1 l2 a N; [reflexivity|].
  cbn [push_runs]. rewrite push_app by exact N. apply IH. apply push_nonempty.
Qed.
Lemma pushes_covers : forall S (cks : list (chk S)) l a ts b, covers a l ts b -> b + N.of_nat (length cks) < two64 ->
  covers a (push_runs l b cks) (ts ++ map c_tick cks) (b + N.of_nat (length cks)).
Proof.
  intros S cks. induction cks as [|c cks IH]; intros l a ts b C B.
  - cbn. rewrite app_nil_r, N.add_0_r. exact C.
  - cbn [push_runs map length] in *. rewrite w64_small by lia.
    replace (ts ++ c_tick c :: map c_tick cks) with ((ts ++ [c_tick c]) ++ map c_tick cks) by (rewrite <- app_assoc; reflexivity).
    replace (b + N.of_nat (Datatypes.S (length cks))) with (b + 1 + N.of_nat (length cks)) by lia.
    apply IH; [apply push_covers; exact C|lia].
Qed.
Lemma pushes_apart : forall S (cks : list (chk S)) l b, apart l -> apart (push_runs l b cks).
Proof. intros S cks. induction cks as [|c cks IH]; intros l b A; [exact A|]. cbn [push_runs]. apply IH, push_apart, A. Qed.
Lemma pushes_nonempty : forall S (cks : list (chk S)) l b, (l <> [] \/ cks <> []) -> push_runs l b cks <> [].
Proof.
  intros S cks. induction cks as [|c cks IH]; intros l b [N|N]; cbn [push_runs]; try congruence; apply IH; left; apply push_nonempty.
Qed.
Lemma drain_spec : forall l o k, drain l = (o, k) -> l = o ++ k /\ (length k <= 1)%nat /\ (l <> [] -> k <> []).
Proof.
  induction l as [|r l IH]; intros o k E; [injection E as <- <-; repeat split; auto|].
  destruct l as [|r' l']; [injection E as <- <-; repeat split; auto; discriminate|].
  change (drain (r :: r' :: l')) with (let '(o, k) := drain (r' :: l') in (r :: o, k)) in E.
  destruct (drain (r' :: l')) as [o' k'] eqn:D. injection E as <- <-.
  destruct (IH _ _ eq_refl) as [E [L N]]. split; [cbn; rewrite <- E; reflexivity|]. split; [exact L|]. intros _. apply N. discriminate.
Qed.

(** Windows of the commits [bs], numbered from [a]. *)
Inductive wins {S} : N -> list (win S) -> list (list (chk S)) -> Prop :=
| win_nil : forall a, wins a [] []
| win_skip : forall a ws bs, wins a ws bs -> wins a ws ([] :: bs)
| win_cons : forall a b ws bs, b <> [] -> wins (a + N.of_nat (length b)) ws bs ->
    wins a (mkWin a (a + N.of_nat (length b) - 1) (fst (span b)) (snd (span b)) b :: ws) (b :: bs).

Lemma wins_snoc : forall S (bs : list (list (chk S))) a ws b, wins a ws bs -> b <> [] ->
  wins a (ws ++ [mkWin (a + count bs) (a + count bs + N.of_nat (length b) - 1) (fst (span b)) (snd (span b)) b]) (bs ++ [b]).
Proof.
  intros S bs a ws b W NB. induction W as [a|a ws bs W IH|a b' ws bs N' W IH].
  - cbn. unfold count. cbn. rewrite N.add_0_r. apply win_cons; [exact NB|constructor].
  - cbn. apply win_skip. exact IH.
  - cbn. apply win_cons; [exact N'|]. unfold count in *. cbn [concat]. rewrite len_app, N.add_assoc. exact IH.
Qed.
Lemma wins_snoc_nil : forall S (bs : list (list (chk S))) a ws, wins a ws bs -> wins a ws (bs ++ [[]]).
Proof. intros S bs a ws W. induction W; cbn; constructor; auto. constructor. Qed.

Record inv {S} (bs : list (list (chk S))) (k : writer S) : Prop := mkInv {
  i_next : k_next k = count bs;
  i_cov : covers 0 (d_runs (k_db k) ++ k_runs k) (map c_tick (concat bs)) (count bs);
  i_apart : apart (d_runs (k_db k) ++ k_runs k);
  i_one : (length (k_runs k) <= 1)%nat;
  i_some : concat bs <> [] -> k_runs k <> [];
  i_win : wins 0 (d_wins (k_db k)) bs }.

Lemma inv_fresh : forall S, inv [] (fresh S).
Proof. intros S. constructor; cbn; try constructor; auto. Qed.

Lemma all_live_iff : forall S (b : list (chk S)), all_live b = true <-> Forall (fun c => c_id c <> unidentified) b.
Proof.
  intros S b. unfold all_live. rewrite forallb_forall, Forall_forall. split; intros H c I; specialize (H c I).
  - apply negb_true_iff, N.eqb_neq in H. exact H.
  - apply negb_true_iff, N.eqb_neq. exact H.
Qed.
Lemma count_snoc : forall S (bs : list (list (chk S))) b, count (bs ++ [b]) = count bs + N.of_nat (length b).
Proof. intros S bs b. unfold count. rewrite concat_app. cbn [concat]. rewrite app_nil_r. apply len_app. Qed.
Lemma concat_snoc : forall A (bs : list (list A)) b, concat (bs ++ [b]) = concat bs ++ b.
Proof. intros A bs b. rewrite concat_app. cbn. rewrite app_nil_r. reflexivity. Qed.

Lemma commit_ok : forall S bs (k : writer S) b, inv bs k -> count (bs ++ [b]) < two64 -> batch_ok b ->
  exists k', commit k b = Done k' /\ inv (bs ++ [b]) k' /\ k_ids k' = map c_id b.
Proof.
  intros S bs k b I B O. rewrite count_snoc in B. destruct I as [I1 I2 I3 I4 I5 I6]. destruct b as [|c b].
  - eexists. split; [reflexivity|]. split; [|reflexivity].
    constructor; cbn [k_next k_db k_runs]; rewrite ?count_snoc, ?concat_snoc, ?app_nil_r; cbn [length]; rewrite ?N.add_0_r; auto.
    apply wins_snoc_nil. exact I6.
  - destruct O as [O1 O2]. unfold commit, save. cbn [k_ids k_next k_runs k_db]. rewrite O1. cbn [negb].
    set (cks := c :: b) in *. rewrite I1.
    assert (LP : 0 < N.of_nat (length cks)) by (cbn; lia).
    rewrite (w64_small (count bs + N.of_nat (length cks))) by lia. rewrite sub64_le by lia.
    assert (X : (count bs + N.of_nat (length cks) - 1 <? count bs) = false) by (apply N.ltb_ge; lia). rewrite X. clear X.
    rewrite (proj2 (all_live_iff _ cks) O2). cbn [negb].
    destruct (drain (push_runs (k_runs k) (count bs) cks)) as [sent kept] eqn:D.
    apply drain_spec in D. destruct D as [D1 [D2 D3]].
    assert (NE : push_runs (k_runs k) (count bs) cks <> []) by (apply pushes_nonempty; right; discriminate).
    assert (J : (d_runs (k_db k) ++ sent) ++ kept = push_runs (d_runs (k_db k) ++ k_runs k) (count bs) cks).
    { rewrite <- app_assoc, <- D1. destruct (k_runs k) as [|r l] eqn:K.
      - assert (Z : concat bs = []) by (destruct (concat bs); [reflexivity|exfalso; apply I5; [discriminate|reflexivity]]).
        rewrite Z, app_nil_r in I2. destruct (d_runs (k_db k)); [reflexivity|]. inversion I2.
      - rewrite pushes_app by discriminate. reflexivity. }
    eexists. split; [reflexivity|]. split; [|reflexivity].
    constructor; cbn [k_next k_db k_runs d_runs d_wins]; rewrite ?count_snoc, ?concat_snoc.
    + reflexivity.
    + rewrite J, map_app. apply pushes_covers; [exact I2|exact B].
    + rewrite J. apply pushes_apart. exact I3.
    + exact D2.
    + intros _. apply D3, NE.
    + pose proof (wins_snoc _ bs 0 (d_wins (k_db k)) cks I6) as W. rewrite !N.add_0_l in W. apply W. discriminate.
Qed.
Lemma commit_only : forall S (k k' : writer S) b, commit k b = Done k' -> batch_ok b.
Proof.
  intros S k k' [|c b] E; [exact I|]. unfold commit, save in E. cbn [k_ids] in E. destruct (c_snap c) eqn:C; [|discriminate].
  cbn [negb] in E. destruct (_ <? _); [discriminate|]. destruct (all_live (c :: b)) eqn:L; [|discriminate].
  split; [exact C|]. apply all_live_iff, L.
Qed.

Lemma commits_app : forall S bs1 bs2 (k : writer S), commits k (bs1 ++ bs2) = obind (commits k bs1) (fun k' => commits k' bs2).
Proof.
  intros S bs1. induction bs1 as [|b bs1 IH]; intros bs2 k; [reflexivity|]. cbn. destruct (commit k b); cbn; auto.
Qed.
Lemma count_prefix : forall S (bs : list (list (chk S))) b, count bs <= count (bs ++ [b]).
Proof. intros S bs b. rewrite count_snoc. lia. Qed.
Lemma commits_ok : forall S (bs : list (list (chk S))), count bs < two64 -> Forall batch_ok bs ->
  exists k, commits (fresh S) bs = Done k /\ inv bs k /\ (bs <> [] -> k_ids k = map c_id (last bs [])).
Proof.
  intros S bs. induction bs as [|b bs IH] using rev_ind; intros B O.
  - exists (fresh S). split; [reflexivity|]. split; [apply inv_fresh|congruence].
  - apply Forall_app in O. destruct O as [O1 O2]. inversion O2; subst.
    pose proof (count_prefix _ bs b). destruct IH as [k [E [I _]]]; [lia|exact O1|].
    destruct (commit_ok _ _ _ b I) as [k' [E' [I' Q]]]; [exact B|assumption|].
    exists k'. split; [rewrite commits_app, E; cbn; rewrite E'; reflexivity|]. split; [exact I'|]. intros _. rewrite last_last. exact Q.
Qed.
Lemma commits_only : forall S bs (k k' : writer S), commits k bs = Done k' -> Forall batch_ok bs.
Proof.
  intros S bs. induction bs as [|b bs IH]; intros k k' E; [constructor|]. cbn in E.
  destruct (commit k b) as [k1| | | |] eqn:C; cbn in E; try discriminate.
  constructor; [apply (commit_only _ _ _ _ C)|apply (IH _ _ E)].
Qed.
Lemma commits_inv : forall S bs (k : writer S), commits (fresh S) bs = Done k -> count bs < two64 -> inv bs k.
Proof.
  intros S bs k E B. destruct (commits_ok _ bs B (commits_only _ _ _ _ E)) as [k' [E' [I _]]]. rewrite E in E'. injection E' as <-. exact I.
Qed.

Lemma number_app : forall l1 l2 a, number a (l1 ++ l2) = number a l1 ++ number (a + N.of_nat (length l1)) l2.
Proof.
  induction l1 as [|t l1 IH]; intros l2 a; [cbn; rewrite N.add_0_r; reflexivity|].
  cbn [number app length]. rewrite IH. replace (a + N.of_nat (S (length l1))) with (a + 1 + N.of_nat (length l1)) by lia. reflexivity.
Qed.
Lemma number_repeat : forall n a t, number a (repeat t n) = map (fun i => (a + N.of_nat i, t)) (seq 0 n).
Proof.
  induction n as [|n IH]; intros a t; [reflexivity|]. cbn [repeat number seq map]. rewrite IH, <- seq_shift, map_map.
  f_equal; [f_equal; lia|]. apply map_ext. intros i. f_equal. lia.
Qed.
Lemma covers_expand : forall a l ts b, covers a l ts b -> concat (map expand l) = number a ts.
Proof.
  intros a l ts b C. induction C as [a|a k t l ts b C IH]; [reflexivity|].
  cbn [map concat]. rewrite IH, number_app, repeat_length, number_repeat. unfold expand. cbn [r_start r_end r_tick].
  replace (N.to_nat (a + N.of_nat k + 1 - a)) with (S k) by lia. reflexivity.
Qed.

(** Reading. *)
Lemma run_len_of : forall a k t, a + N.of_nat k < two64 - 1 -> run_len (mkR a (a + N.of_nat k) t) = N.of_nat (S k).
Proof. intros a k t H. unfold run_len. cbn [r_start r_end]. rewrite sub64_le by lia. rewrite w64_small; lia. Qed.
Lemma covers_total : forall a l ts b, covers a l ts b -> b < two64 -> forall t0, t0 + N.of_nat (length ts) < two64 ->
  fold_left (fun t r => CherryModel.w64 (t + run_len r)) l t0 = t0 + N.of_nat (length ts).
Proof.
  intros a l ts b C B. pose proof (covers_end _ _ _ _ C) as E. revert E. induction C as [a|a k t l ts b C IH]; intros E t0 L; [cbn; lia|].
  cbn [fold_left]. rewrite app_length, repeat_length in *. rewrite run_len_of by lia. rewrite w64_small by lia.
  rewrite IH; [lia|exact B| |lia]. apply (covers_end _ _ _ _ C).
Qed.
Lemma nth_repeat_app : forall (t : N) n l j, (j < n)%nat -> nth_error (repeat t n ++ l) j = Some t.
Proof. intros t n. induction n as [|n IH]; intros l [|j] H; try lia; cbn; [reflexivity|]. apply IH. lia. Qed.
Lemma locate_covers : forall a l ts b, covers a l ts b -> b < two64 -> forall cur j, cur + N.of_nat (length ts) < two64 ->
  (j < length ts)%nat -> exists t, nth_error ts j = Some t /\ locate l cur (cur + N.of_nat j) = Some (a + N.of_nat j, t).
Proof.
  intros a l ts b C B. pose proof (covers_end _ _ _ _ C) as E. revert E. induction C as [a|a k t l ts b C IH]; intros E cur j L J; [cbn in J; lia|].
  rewrite app_length, repeat_length in *. cbn [locate]. rewrite run_len_of by lia. rewrite w64_small by lia.
  destruct (cur + N.of_nat j <? cur + N.of_nat (S k)) eqn:X.
  - apply N.ltb_lt in X. exists t. split; [apply nth_repeat_app; lia|]. cbn [r_start r_tick]. rewrite sub64_le by lia.
    rewrite w64_small by lia. f_equal. f_equal. lia.
  - apply N.ltb_ge in X. pose proof (covers_end _ _ _ _ C) as E'.
    destruct (IH B E' (cur + N.of_nat (S k)) (j - S k)%nat) as [t' [T1 T2]]; [lia|lia|].
    exists t'. rewrite nth_error_app2 by (rewrite repeat_length; lia). rewrite repeat_length. split; [exact T1|].
    replace (cur + N.of_nat j) with (cur + N.of_nat (S k) + N.of_nat (j - S k)) by lia. rewrite T2. f_equal. f_equal. lia.
Qed.

Lemma span_acc : forall S (b : list (chk S)) x y, let p := fold_left (fun p c => (N.min (fst p) (c_tick c), N.max (snd p) (c_tick c))) b (x, y) in
  fst p <= x /\ y <= snd p /\ (forall c, In c b -> fst p <= c_tick c <= snd p)
  /\ (fst p = x \/ In (fst p) (map c_tick b)) /\ (snd p = y \/ In (snd p) (map c_tick b)).
Proof.
  intros S b. induction b as [|c b IH]; intros x y.
  - cbn. split; [lia|]. split; [lia|]. split; [intros c []|]. split; left; reflexivity.
  - cbn [fold_left fst snd]. specialize (IH (N.min x (c_tick c)) (N.max y (c_tick c))). cbn zeta in *.
    destruct (fold_left _ b _) as [u v]. cbn [fst snd] in *. destruct IH as [I1 [I2 [I3 [I4 I5]]]].
    split; [lia|]. split; [lia|]. split; [intros d [<-|D]; [lia|apply I3, D]|]. cbn [map In]. split.
    + destruct I4 as [I4|I4]; [|auto]. destruct (N.min_spec x (c_tick c)) as [[_ M]|[_ M]]; rewrite M in I4; auto.
    + destruct I5 as [I5|I5]; [|auto]. destruct (N.max_spec y (c_tick c)) as [[_ M]|[_ M]]; rewrite M in I5; auto.
Qed.
Lemma span_in : forall S (b : list (chk S)) c, In c b -> fst (span b) <= c_tick c <= snd (span b).
Proof. intros S b c I. destruct (span_acc _ b 18446744073709551615 0) as [_ [_ [H _]]]. apply H, I. Qed.

(** The window that holds the number [a + j]. *)
Lemma wins_find : forall S a ws (bs : list (list (chk S))), wins a ws bs -> forall j c, nth_error (concat bs) j = Some c ->
  exists x b i, filter (asked (a + N.of_nat j) (c_tick c)) ws = [x] /\ In b bs /\ w_cks x = b /\ w_ea x = w_sa x + N.of_nat (length b) - 1
    /\ w_sa x + N.of_nat i = a + N.of_nat j /\ nth_error b i = Some c /\ w_sa x + N.of_nat (length b) <= a + count bs /\ b <> [].
Proof.
  assert (F : forall S a ws (bs : list (list (chk S))) n t, wins a ws bs -> n < a -> filter (asked n t) ws = []).
  { intros S a ws bs n t W. induction W as [a|a ws bs W IH|a b ws bs NB W IH]; intros L; [reflexivity|apply IH, L|].
    cbn [filter]. unfold asked at 1. cbn [w_sa]. assert (X : (a <=? n) = false) by (apply N.leb_gt; exact L). rewrite X. cbn [andb]. apply IH. lia. }
  intros S a ws bs W. induction W as [a|a ws bs W IH|a b ws bs NB W IH]; intros j c E.
  - destruct j; discriminate.
  - destruct (IH j c E) as [x [b [i [H1 [H2 H3]]]]]. exists x, b, i. split; [exact H1|]. split; [right; exact H2|exact H3].
  - cbn [concat] in E. destruct (Nat.lt_ge_cases j (length b)) as [L|L].
    + rewrite nth_error_app1 in E by exact L. exists (mkWin a (a + N.of_nat (length b) - 1) (fst (span b)) (snd (span b)) b), b, j.
      cbn [w_cks w_ea w_sa]. pose proof (span_in _ b c (nth_error_In _ _ E)) as SP.
      split; [|unfold count; cbn [concat]; rewrite len_app; repeat split; auto; [left; reflexivity|lia]].
      cbn [filter]. unfold asked at 1. cbn [w_sa w_ea w_st w_et].
      rewrite (proj2 (N.leb_le a (a + N.of_nat j))) by lia. rewrite (proj2 (N.leb_le (a + N.of_nat j) (a + N.of_nat (length b) - 1))) by lia.
      rewrite (proj2 (N.leb_le _ _) (proj1 SP)), (proj2 (N.leb_le _ _) (proj2 SP)). cbn [andb].
      rewrite (F _ _ _ _ _ _ W); [reflexivity|lia].
    + rewrite nth_error_app2 in E by exact L. destruct (IH _ _ E) as [x [b' [i [H1 [H2 [H3 [H4 [H5 [H6 [H7 H8]]]]]]]]]].
      replace (a + N.of_nat (length b) + N.of_nat (j - length b)) with (a + N.of_nat j) in * by lia.
      exists x, b', i. split; [|split; [right; exact H2|]; repeat split; auto; unfold count in *; cbn [concat]; rewrite len_app; lia].
      cbn [filter]. unfold asked at 1. cbn [w_sa w_ea w_st w_et].
      assert (X : (a + N.of_nat j <=? a + N.of_nat (length b) - 1) = false)
        by (apply N.leb_gt; destruct b; [congruence|cbn [length] in *; lia]). rewrite X, andb_false_r. cbn [andb]. exact H1.
Qed.

Lemma records_len : forall S (b : list (chk S)) sts p, records p b sts -> length b = length sts.
Proof. intros S b. induction b as [|c b IH]; intros [|x sts] p R; try contradiction; [reflexivity|]. cbn. f_equal. destruct R as [_ [_ R]]. apply (IH _ _ R). Qed.
Lemma records_nth : forall S (b : list (chk S)) sts p i c, records p b sts -> nth_error b i = Some c ->
  exists x, nth_error sts i = Some x /\ (c_snap c = true -> forall s, c_apply c s = x)
    /\ (forall j y, i = Datatypes.S j -> nth_error sts j = Some y -> c_apply c y = x).
Proof.
  intros S b. induction b as [|c0 b IH]; intros [|x0 sts] p i c R E; try contradiction; [destruct i; discriminate|].
  destruct R as [R1 [R2 R3]]. destruct i as [|i].
  - injection E as <-. exists x0. split; [reflexivity|]. split; [exact R1|]. intros j y J. discriminate.
  - destruct (IH _ _ _ _ R3 E) as [x [X1 [X2 X3]]]. exists x. split; [exact X1|]. split; [exact X2|].
    intros j y J Y. injection J as <-. destruct i as [|i].
    + cbn in Y. injection Y as <-. destruct b as [|c1 b]; [discriminate|]. injection E as <-. destruct sts as [|x1 sts]; [contradiction|].
      injection X1 as <-. destruct R3 as [_ [R3 _]]. apply R3. reflexivity.
    + cbn in Y. apply (X3 i y eq_refl Y).
Qed.
Lemma load_nth : forall S (b : list (chk S)) sts i c s, records None b sts -> batch_ok b -> nth_error b i = Some c ->
  exists x, nth_error sts i = Some x /\ load b i s = Done x.
Proof.
  intros S b sts i c s R O. unfold load. revert c. induction i as [|j IH]; intros c E.
  - destruct (records_nth _ _ _ _ _ _ R E) as [x [X1 [X2 _]]]. exists x. split; [exact X1|]. destruct b as [|c0 b]; [discriminate|].
    injection E as <-. destruct O as [O _]. cbn [chain nth_error]. rewrite O. cbn. rewrite (X2 O). reflexivity.
  - destruct (records_nth _ _ _ _ _ _ R E) as [x [X1 [X2 X3]]]. exists x. split; [exact X1|]. cbn [chain]. rewrite E.
    destruct (c_snap c) eqn:C; [cbn; rewrite (X2 eq_refl); reflexivity|].
    assert (J : exists d, nth_error b j = Some d).
    { destruct (nth_error b j) as [d|] eqn:D; [eexists; reflexivity|]. apply nth_error_None in D.
      assert (nth_error b (Datatypes.S j) <> None) as Z by (rewrite E; discriminate). apply nth_error_Some in Z. lia. }
    destruct J as [d D]. destruct (IH d D) as [y [Y1 Y2]]. destruct (chain b j) as [l| | | |]; cbn in *; try discriminate.
    injection Y2 as Y2. rewrite fold_left_app. cbn. rewrite Y2, (X3 j y eq_refl Y1). reflexivity.
Qed.

Lemma wins_mem : forall S a ws (bs : list (list (chk S))), wins a ws bs -> forall sts w, Forall2 (records None) bs sts -> In w ws ->
  exists st pre post, In (w_cks w) bs /\ records None (w_cks w) st /\ concat sts = pre ++ st ++ post /\ w_sa w = a + N.of_nat (length pre)
    /\ w_ea w = w_sa w + N.of_nat (length (w_cks w)) - 1 /\ w_cks w <> [].
Proof.
  intros S a ws bs W. induction W as [a|a ws bs W IH|a b ws bs NB W IH]; intros sts w F I.
  - destruct I.
  - inversion F; subst. destruct y; [|contradiction]. destruct (IH _ _ H3 I) as [st [pre [post [H1' [H2' H3']]]]].
    exists st, pre, post. split; [right; exact H1'|]. split; [exact H2'|]. cbn. exact H3'.
  - inversion F; subst. destruct I as [<-|I].
    + exists y, [], (concat l'). cbn. rewrite N.add_0_r. repeat split; auto.
    + destruct (IH _ _ H3 I) as [st [pre [post [A1 [A2 [A3 [A4 A5]]]]]]].
      exists st, (y ++ pre), post. split; [right; exact A1|]. split; [exact A2|]. split; [cbn; rewrite A3, app_assoc; reflexivity|].
      split; [|exact A5]. rewrite A4, len_app, <- (records_len _ _ _ _ H1). lia.
Qed.
Lemma rise_sorted : forall S (b : list (chk S)), Sorted N.le (map c_tick b) -> ticks_rise b = true.
Proof.
  intros S b. induction b as [|c [|d b] IH]; intros H; [reflexivity|reflexivity|].
  change (ticks_rise (c :: d :: b)) with (negb (c_tick d <? c_tick c) && ticks_rise (d :: b)).
  cbn [map] in H. inversion H; subst. rewrite IH by assumption. inversion H3; subst.
  rewrite (proj2 (N.ltb_ge _ _) H1). reflexivity.
Qed.
Lemma from_window_hit : forall S (w : win S) i c, nth_error (w_cks w) i = Some c ->
  from_window (w_sa w + N.of_nat i) (c_tick c) w = Some i.
Proof.
  intros S w i c E. unfold from_window. rewrite (proj2 (N.leb_le _ _)) by lia.
  replace (w_sa w + N.of_nat i - w_sa w) with (N.of_nat i) by lia. rewrite Nat2N.id, E.
  assert (L : (i < length (w_cks w))%nat) by (apply nth_error_Some; rewrite E; discriminate).
  rewrite (proj2 (N.ltb_lt _ _)) by lia. rewrite N.eqb_refl. reflexivity.
Qed.
Lemma from_window_only : forall S (w : win S) a t i, from_window a t w = Some i ->
  exists c, nth_error (w_cks w) i = Some c /\ a = w_sa w + N.of_nat i.
Proof.
  intros S w a t i E. unfold from_window in E. destruct (w_sa w <=? a) eqn:L; [|discriminate]. apply N.leb_le in L.
  destruct (_ <? _); [|discriminate]. destruct (nth_error (w_cks w) (N.to_nat (a - w_sa w))) as [c|] eqn:Q; [|discriminate].
  destruct (c_tick c =? t); [|discriminate]. injection E as <-. exists c. split; [exact Q|]. lia.
Qed.
Lemma unpack_same : forall S (w : win S), w_ea w = w_sa w + N.of_nat (length (w_cks w)) - 1 -> w_cks w <> [] ->
  w_sa w + N.of_nat (length (w_cks w)) < two64 -> unpack w = Done w.
Proof.
  intros S w E NE B. unfold unpack. assert (P : (0 < length (w_cks w))%nat) by (destruct (w_cks w); [congruence|cbn; lia]).
  assert (X : CherryModel.w64 (sub64 (w_ea w) (w_sa w) + 1) = N.of_nat (length (w_cks w))).
  { rewrite E, sub64_le by lia. rewrite w64_small; lia. }
  rewrite X, N.leb_refl, Nat2N.id, firstn_all. destruct w. reflexivity.
Qed.

(** A reader of the windows of [bs] whose rows cover the first ticks. *)
Record rok {S} (bs : list (list (chk S))) (ts : list N) (q : reader S) : Prop := mkRok {
  o_win : wins 0 (d_wins (q_db q)) bs;
  o_cov : covers 0 (q_runs q) ts (q_num q);
  o_pre : exists ts', map c_tick (concat bs) = ts ++ ts';
  o_cache : forall w, q_cache q = Some w -> In w (d_wins (q_db q)) }.

Lemma load_at : forall S bs ts (q : reader S) sts s j, rok bs ts q -> count bs < two64 -> Forall batch_ok bs -> Forall ticks_ok bs ->
  Forall2 (records None) bs sts -> (j < length ts)%nat ->
  exists x q', nth_error (concat sts) j = Some x /\ load_index q (N.of_nat j) s = Done (q', x) /\ rok bs ts q' /\ q_num q' = q_num q.
Proof.
  intros S bs ts q sts s j [O1 O2 [ts' O3] O4] B OK TK F J.
  assert (LT : N.of_nat (length ts) <= count bs).
  { unfold count. rewrite <- (map_length c_tick (concat bs)), O3, len_app. lia. }
  pose proof (covers_end _ _ _ _ O2) as QN. rewrite N.add_0_l in QN.
  destruct (locate_covers _ _ _ _ O2 ltac:(lia) 0 j ltac:(lia) J) as [t [T1 T2]]. rewrite !N.add_0_l in T2.
  assert (C : exists c, nth_error (concat bs) j = Some c /\ c_tick c = t).
  { assert (X : nth_error (map c_tick (concat bs)) j = Some t) by (rewrite O3, nth_error_app1 by exact J; exact T1).
    rewrite nth_error_map in X. destruct (nth_error (concat bs) j) as [c|]; [|discriminate]. injection X as X. exists c. auto. }
  destruct C as [c [C1 C2]].
  assert (HIT : forall w i, In w (d_wins (q_db q)) -> from_window (N.of_nat j) t w = Some i ->
    exists x, nth_error (concat sts) j = Some x /\ load (w_cks w) i s = Done x).
  { intros w i I E. destruct (from_window_only _ _ _ _ _ E) as [d [D1 D2]].
    destruct (wins_mem _ _ _ _ O1 _ _ F I) as [st [pre [post [M1 [M2 [M3 [M4 _]]]]]]].
    destruct (load_nth _ _ _ _ _ s M2 (proj1 (Forall_forall _ _) OK _ M1) D1) as [x [X1 X2]]. exists x. split; [|exact X2].
    assert (j = length pre + i)%nat as -> by lia. rewrite M3, nth_error_app2 by lia. replace (length pre + i - length pre)%nat with i by lia.
    rewrite nth_error_app1; [exact X1|]. apply nth_error_Some. rewrite X1. discriminate. }
  unfold load_index. rewrite (proj2 (N.leb_gt (q_num q) (N.of_nat j))) by lia. rewrite T2.
  assert (DISK : exists x q', nth_error (concat sts) j = Some x /\
    obind (from_disk (q_db q) (N.of_nat j) t) (fun r => match r with None => Refused
      | Some (w, i) => obind (load (w_cks w) i s) (fun s' => Done (mkRd (q_db q) (Some w) (q_runs q) (q_num q), s')) end) = Done (q', x)
    /\ rok bs ts q' /\ q_num q' = q_num q).
  { destruct (wins_find _ _ _ _ O1 _ _ C1) as [w [b [i [W1 [W2 [W3 [W4 [W5 [W6 [W7 W8]]]]]]]]]].
    rewrite N.add_0_l, C2 in W1. rewrite N.add_0_l in W5, W7. subst b.
    assert (IW : In w (d_wins (q_db q))) by (apply (filter_In (asked (N.of_nat j) t) w (d_wins (q_db q))); rewrite W1; left; reflexivity).
    assert (FW : from_window (N.of_nat j) t w = Some i) by (rewrite <- W5, <- C2; apply from_window_hit; exact W6).
    destruct (HIT w i IW FW) as [x [X1 X2]].
    exists x, (mkRd (q_db q) (Some w) (q_runs q) (q_num q)). split; [exact X1|].
    unfold from_disk. rewrite W1, unpack_same by (auto; lia). cbn [obind]. rewrite FW.
    destruct (proj1 (Forall_forall _ _) TK _ W2) as [TS _]. rewrite rise_sorted by exact TS. cbn [negb].
    pose proof (proj1 (Forall_forall _ _) OK _ W2) as OB.
    assert (AL : all_live (w_cks w) = true) by (apply all_live_iff; destruct (w_cks w); [constructor|exact (proj2 OB)]).
    rewrite AL. cbn [negb obind]. rewrite X2. cbn [obind]. split; [reflexivity|]. split; [|reflexivity].
    constructor; cbn; auto; [exists ts'; exact O3|]. intros w' E. injection E as <-. exact IW. }
  destruct (q_cache q) as [w|] eqn:QC; [|exact DISK].
  destruct (from_window (N.of_nat j) t w) as [i|] eqn:FW; [|exact DISK].
  destruct (HIT w i (O4 w eq_refl) FW) as [x [X1 X2]]. exists x, q. split; [exact X1|]. rewrite X2. split; [reflexivity|].
  split; [|reflexivity]. constructor; auto; [exists ts'; exact O3|]. intros w' E. apply O4. rewrite <- QC. exact E.
Qed.
Lemma load_beyond : forall S (q : reader S) s i, q_num q <= i -> load_index q i s = Refused.
Proof. intros S q s i H. unfold load_index. rewrite (proj2 (N.leb_le _ _) H). reflexivity. Qed.

Lemma loads_at : forall S bs ts sts, count bs < two64 -> Forall batch_ok bs -> Forall ticks_ok bs -> Forall2 (records None) bs sts ->
  forall is (q : reader S) s, rok bs ts q -> Forall (fun i => i < N.of_nat (length ts)) is ->
  exists out q' s', loads q is s = Done out /\ Forall2 (fun i x => nth_error (concat sts) (N.to_nat i) = Some x) is out
    /\ rok bs ts q' /\ (forall more, loads q (is ++ more) s = obind (loads q' more s') (fun l => Done (out ++ l))).
Proof.
  intros S bs ts sts B OK TK F is. induction is as [|i is IH]; intros q s O L.
  - exists [], q, s. repeat split; auto; try apply O. intros more. cbn. destruct (loads q more s); reflexivity.
  - inversion L; subst. destruct (load_at _ _ _ q _ s (N.to_nat i) O B OK TK F ltac:(lia)) as [x [q1 [X1 [X2 [X3 _]]]]].
    rewrite N2Nat.id in X2. destruct (IH q1 x X3 H2) as [out [q' [s' [E1 [E2 [E3 E4]]]]]].
    exists (x :: out), q', s'. cbn [loads app]. rewrite X2. cbn [obind]. rewrite E1. cbn [obind].
    split; [reflexivity|]. split; [constructor; auto|]. split; [exact E3|].
    intros more. rewrite E4. destruct (loads q' more s'); reflexivity.
Qed.
Lemma psteps_at : forall S bs ts sts, count bs < two64 -> Forall batch_ok bs -> Forall ticks_ok bs -> Forall2 (records None) bs sts ->
  forall m (q : reader S) s j, rok bs ts q -> (j <= length ts)%nat ->
  psteps m (mkPl q (N.of_nat j)) s = Done (firstn m (skipn j (firstn (length ts) (concat sts)))).
Proof.
  intros S bs ts sts B OK TK F m. induction m as [|m IH]; intros q s j O J; [reflexivity|].
  pose proof (covers_end _ _ _ _ (o_cov _ _ _ O)) as QN. rewrite N.add_0_l in QN.
  assert (LT : N.of_nat (length ts) <= count bs).
  { destruct (o_pre _ _ _ O) as [ts' P]. unfold count. rewrite <- (map_length c_tick (concat bs)), P, len_app. lia. }
  cbn [psteps]. unfold pstep. cbn [p_rd p_next]. destruct (q_num q <=? N.of_nat j) eqn:X.
  - apply N.leb_le in X. assert (j = length ts) by lia. subst j. cbn [obind]. rewrite (IH q s _ O J). cbn [obind].
    rewrite skipn_all2 by (rewrite firstn_length; lia). rewrite !firstn_nil. reflexivity.
  - apply N.leb_gt in X. destruct (load_at _ _ _ q _ s j O B OK TK F ltac:(lia)) as [x [q1 [X1 [X2 [X3 _]]]]].
    rewrite X2. cbn [obind]. rewrite w64_small by lia. replace (N.of_nat j + 1) with (N.of_nat (Datatypes.S j)) by lia.
    rewrite (IH q1 x (Datatypes.S j) X3) by lia. cbn [obind].
    assert (Y : nth_error (firstn (length ts) (concat sts)) j = Some x).
    { rewrite <- X1. clear - X QN. assert (H : (j < length ts)%nat) by lia. clear X QN. revert H. generalize (length ts) as n. generalize (concat sts) as l.
      induction j as [|j IHj]; intros l n H; destruct n as [|n]; try lia; destruct l; cbn; auto. apply IHj. lia. }
    f_equal. clear - Y. revert Y. generalize (firstn (length ts) (concat sts)) as l. induction j as [|j IHj]; intros [|a l] Y; try discriminate.
    + injection Y as <-. reflexivity.
    + cbn [skipn]. apply IHj. exact Y.
Qed.
