(** Invariants of caches for the geometries in which decoding identifies blocks. *)
From Coq Require Import List NArith Arith Bool Lia.
From Verif Require Import MathUtilsModel MathUtilsProofs AddrDecodeModel AddrDecodeProps ReplacementModel LayoutModel StorageModel CacheModel.
Import ListNotations.
Open Scope N_scope.

Lemma put_len : forall (A : Type) (x : A) l i, length (put i x l) = length l.
Proof. intros A x. induction l as [|y l IH]; intros [|i]; cbn [put length]; congruence. Qed.
Lemma put_nth : forall (A : Type) (x : A) l i j, (i < length l)%nat -> nth_error (put i x l) j = if Nat.eqb j i then Some x else nth_error l j.
Proof.
  intros A x. induction l as [|y l IH]; intros i j H; cbn [length] in H; [lia|]. destruct i as [|i]; destruct j as [|j]; cbn [put nth_error Nat.eqb]; try reflexivity.
  apply IH. lia.
Qed.
Lemma find_way_some : forall t ws w, find_way t ws = Some w -> exists l, nth_error ws w = Some l /\ ln_valid l = true /\ ln_tag l = t.
Proof.
  intros t. induction ws as [|l ws IH]; intros w H; cbn [find_way] in H; [discriminate|]. destruct (ln_valid l && (ln_tag l =? t)) eqn:E.
  - injection H as <-. apply andb_prop in E. destruct E as [E1 E2]. apply N.eqb_eq in E2. exists l. auto.
  - destruct (find_way t ws) as [v|]; [|discriminate]. injection H as <-. destruct (IH v eq_refl) as [l' [H1 H2]]. exists l'. auto.
Qed.
Lemma find_way_none : forall t ws, find_way t ws = None -> forall w l, nth_error ws w = Some l -> ln_valid l = true -> ln_tag l <> t.
Proof.
  intros t. induction ws as [|l ws IH]; intros H w l' Hn Hv; cbn [find_way] in H; [destruct w; discriminate|].
  destruct (ln_valid l && (ln_tag l =? t)) eqn:E; [discriminate|]. destruct (find_way t ws) as [v|]; [discriminate|].
  destruct w as [|w]; cbn [nth_error] in Hn; [|eapply IH; eauto]. injection Hn as ->. rewrite Hv in E. cbn in E. apply N.eqb_neq. exact E.
Qed.

(** What a replacement policy owes a cache with [W] ways. *)
Record pol_ok {R} (p : policy R) (W : nat) (P : R -> Prop) : Prop := mkPO {
  po_new : P (p_new p);
  po_lru : forall r, P r -> exists w, p_lru p r = Some w /\ (w < W)%nat;
  po_mru : forall r w, P r -> (w < W)%nat -> exists r', p_mru p w r = Some r' /\ P r';
  po_low : forall r w, P r -> (w < W)%nat -> exists r', p_low p w r = Some r' /\ P r';
  po_reset : forall r, P r -> P (p_reset p r) }.
(** Decoding for a line size of 2^l and 2^s sets. *)
Record dec_ok (d : decoder) (L S : N) : Prop := mkDO {
  do_L : 0 < L; do_S : 0 < S; do_S32 : S < 2 ^ 32;
  do_idx : forall a, calc_idx d a = Some ((a / L) mod S);
  do_tag : forall a, calc_tag d a = Some (a / L / S);
  do_blk : forall a, a < 2 ^ 64 -> calc_block_addr d a = a / L * L;
  do_off : forall a, calc_block_offset d a = a mod L }.
Lemma regular_dec : forall sz line_sz stride num_ways kb l s d, regular sz line_sz stride num_ways kb l s ->
  make_decoder sz line_sz stride num_ways kb = Some d -> dec_ok d line_sz (2 ^ s).
Proof.
  intros sz line_sz stride num_ways kb l s d H E. pose proof H as HR. rewrite (regular_decoder _ _ _ _ _ _ _ H) in E. injection E as <-.
  destruct H as [-> [_ [_ [_ [_ [_ [Hs Hsl]]]]]]].
  assert (P1 : 0 < 2 ^ l) by (apply N.neq_0_lt_0; apply N.pow_nonzero; lia).
  assert (P2 : 0 < 2 ^ s) by (apply N.neq_0_lt_0; apply N.pow_nonzero; lia).
  assert (P3 : 2 ^ s < 2 ^ 32) by (apply N.pow_lt_mono_r; lia).
  constructor; auto.
  - intros a. unfold calc_idx. cbn [index_shift index_mask]. destruct (N.ltb_spec l 64); [|lia]. rewrite land_pow2_mask, N.shiftr_div_pow2.
    f_equal. unfold wrap. apply N.mod_small. pose proof (N.mod_upper_bound (a / 2 ^ l) (2 ^ s)). lia.
  - intros a. unfold calc_tag. cbn [tag_shift]. destruct (N.ltb_spec (s + l) 64); [|lia]. rewrite N.shiftr_div_pow2, N.add_comm, N.pow_add_r, N.div_div by lia. reflexivity.
  - intros a Ha. destruct (C48_reassemble sz (2 ^ l) stride num_ways kb _ ltac:(apply N.pow_lt_mono_r; lia) (regular_decoder _ _ _ _ _ _ _ HR) a Ha) as [_ [_ Q]]. exact Q.
  - intros a. unfold calc_block_offset. cbn [blk_offset_mask]. apply land_pow2_mask.
Qed.

Section Cache.
  Context {R : Type} (p : policy R) (W : nat) (P : R -> Prop) (d : decoder) (L S : N).
  Hypothesis PO : pol_ok p W P.
  Hypothesis DO : dec_ok d L S.
  Local Definition Lpos : 0 < L := do_L _ _ _ DO.
  Local Definition Spos : 0 < S := do_S _ _ _ DO.

  Definition at_ (c : cache R) (i w : nat) (l : line) : Prop := exists st, nth_error (c_sets c) i = Some st /\ nth_error (cs_ways st) w = Some l.
  (** The block a line holds. *)
  Definition blk (l : line) : option N := if ln_valid l then Some (ln_addr l / L) else None.
  Definition line_ok (i : nat) (l : line) : Prop :=
    length (ln_data l) = N.to_nat L /\ (ln_valid l = true -> exists b, b * L < 2 ^ 64 /\ N.of_nat i = b mod S /\ ln_tag l = b / S /\ ln_addr l = b * L).
  Record CI (c : cache R) : Prop := mkCI {
    ci_dec : c_dec c = d; ci_len : N.of_nat (length (c_sets c)) = S;
    ci_set : forall i st, nth_error (c_sets c) i = Some st -> length (cs_ways st) = W /\ P (cs_rep st);
    ci_line : forall i w l, at_ c i w l -> line_ok i l;
    ci_uniq : forall i w l i' w' l' b, at_ c i w l -> at_ c i' w' l' -> blk l = Some b -> blk l' = Some b -> i = i' /\ w = w' }.

  Lemma at_fun : forall c i w l l', at_ c i w l -> at_ c i w l' -> l = l'.
  Proof. intros c i w l l' [st [H1 H2]] [st' [H3 H4]]. congruence. Qed.
  Lemma blk_tag : forall i l b, line_ok i l -> (blk l = Some b <-> ln_valid l = true /\ ln_tag l = b / S /\ N.of_nat i = b mod S).
  Proof.
    intros i l b [_ H]. pose proof Lpos as LP. pose proof Spos as SP. unfold blk. destruct (ln_valid l); [|split; [discriminate|intros [Q _]; discriminate]].
    destruct (H eq_refl) as [b0 [H1 [H2 [H3 H4]]]]. rewrite H4, N.div_mul by lia. split.
    - intros Q. injection Q as <-. auto.
    - intros [_ [Q1 Q2]]. f_equal. rewrite (N.div_mod b0 S), (N.div_mod b S) by lia. congruence.
  Qed.

  Lemma set_of_ok : forall c a, CI c -> exists st, set_of c a = Done (N.to_nat ((a / L) mod S)) /\
    nth_error (c_sets c) (N.to_nat ((a / L) mod S)) = Some st.
  Proof.
    intros c a HC. unfold set_of. rewrite (ci_dec _ HC), (do_idx _ _ _ DO). cbn [need obind]. rewrite (ci_len _ HC).
    pose proof Spos as SP. pose proof (N.mod_upper_bound (a / L) S) as B. destruct (N.ltb_spec ((a / L) mod S) S); [|lia].
    destruct (nth_error (c_sets c) (N.to_nat ((a / L) mod S))) as [st|] eqn:E; [eauto|]. exfalso. apply nth_error_None in E. pose proof (ci_len _ HC). lia.
  Qed.
  Definition home (a : N) : nat := N.to_nat ((a / L) mod S).
  (** Lookup. *)
  Lemma get_item_ok : forall c a, CI c -> exists r, get_item c a = Done (home a, r) /\
    match r with
    | Some w => exists l, at_ c (home a) w l /\ blk l = Some (a / L)
    | None => forall i w l, at_ c i w l -> blk l <> Some (a / L)
    end.
  Proof.
    intros c a HC. unfold get_item. rewrite (ci_dec _ HC), (do_tag _ _ _ DO). cbn [need obind]. destruct (set_of_ok c a HC) as [st [E1 E2]].
    rewrite E1. cbn [obind]. unfold nth_set. rewrite E2. cbn [obind]. fold (home a) in *. eexists. split; [reflexivity|].
    destruct (find_way (a / L / S) (cs_ways st)) as [w|] eqn:F.
    - destruct (find_way_some _ _ _ F) as [l [N1 [N2 N3]]]. assert (A1 : at_ c (home a) w l) by (exists st; auto). exists l. split; [exact A1|].
      apply (blk_tag (home a) l _ (ci_line _ HC _ _ _ A1)). split; [exact N2|]. split; [exact N3|]. unfold home. apply N2Nat.id.
    - intros i w l A1 B. pose proof (proj1 (blk_tag i l _ (ci_line _ HC _ _ _ A1)) B) as [B1 [B2 B3]].
      assert (i = home a) by (unfold home; lia). subst i. destruct A1 as [st' [A1 A2]]. assert (st' = st) by congruence. subst st'.
      exact (find_way_none _ _ F w l A2 B1 B2).
  Qed.

  (** Changing one line and the policy of its set. *)
  Lemma put_at : forall c i st w l' r nt, nth_error (c_sets c) i = Some st -> (w < length (cs_ways st))%nat ->
    forall i' w' l, at_ (mkCache (c_dec c) (put i (mkSet (put w l' (cs_ways st)) r nt) (c_sets c))) i' w' l <->
      if Nat.eqb i' i && Nat.eqb w' w then l = l' else at_ c i' w' l.
  Proof.
    intros c i st w l' r nt Hi Hw i' w' l. unfold at_. cbn [c_sets]. rewrite put_nth by (apply nth_error_Some; congruence).
    destruct (Nat.eqb_spec i' i) as [->|Ni]; cbn [andb]; [|reflexivity]. split.
    - intros [st' [H1 H2]]. injection H1 as <-. cbn [cs_ways] in H2. rewrite put_nth in H2 by assumption.
      destruct (Nat.eqb w' w); [congruence|eauto].
    - intros H. eexists. split; [reflexivity|]. cbn [cs_ways]. rewrite put_nth by assumption. destruct (Nat.eqb w' w); [congruence|].
      destruct H as [st' [H1 H2]]. congruence.
  Qed.
  Lemma put_CI : forall c i st w l' r nt, CI c -> nth_error (c_sets c) i = Some st -> (w < W)%nat -> P r -> line_ok i l' ->
    (forall b i' w' l, blk l' = Some b -> at_ c i' w' l -> blk l = Some b -> i' = i /\ w' = w) ->
    CI (mkCache (c_dec c) (put i (mkSet (put w l' (cs_ways st)) r nt) (c_sets c))).
  Proof.
    intros c i st w l' r nt HC Hi Hw HP HL HU. destruct (ci_set _ HC i st Hi) as [SL SP].
    assert (HA := put_at c i st w l' r nt Hi ltac:(lia)). constructor.
    - apply (ci_dec _ HC).
    - cbn [c_sets]. rewrite put_len. apply (ci_len _ HC).
    - cbn [c_sets]. intros j sj. rewrite put_nth by (apply nth_error_Some; congruence). destruct (Nat.eqb j i); [|apply (ci_set _ HC)].
      intros E. injection E as <-. cbn [cs_ways cs_rep]. rewrite put_len. auto.
    - intros j v l A1. apply HA in A1. destruct (Nat.eqb_spec j i) as [->|]; cbn [andb] in A1; [|apply (ci_line _ HC _ _ _ A1)].
      destruct (Nat.eqb v w); [subst; exact HL|apply (ci_line _ HC _ _ _ A1)].
    - intros j v l j' v' m b A1 A2 B1 B2. apply HA in A1. apply HA in A2.
      destruct (Nat.eqb_spec j i) as [Ej|Nj]; destruct (Nat.eqb_spec v w) as [Ev|Nv]; cbn [andb] in A1;
      destruct (Nat.eqb_spec j' i) as [Ej'|Nj']; destruct (Nat.eqb_spec v' w) as [Ev'|Nv']; cbn [andb] in A2;
        try (apply (ci_uniq _ HC _ _ _ _ _ _ _ A1 A2 B1 B2)); subst; auto;
        try (destruct (HU b _ _ _ B1 A2 B2); subst; congruence); try (destruct (HU b _ _ _ B2 A1 B1); subst; congruence).
  Qed.
  (** Changing only policies. *)
  Lemma rep_at : forall c i st r nt, nth_error (c_sets c) i = Some st ->
    forall i' w' l, at_ (mkCache (c_dec c) (put i (mkSet (cs_ways st) r nt) (c_sets c))) i' w' l <-> at_ c i' w' l.
  Proof.
    intros c i st r nt Hi i' w' l. unfold at_. cbn [c_sets]. rewrite put_nth by (apply nth_error_Some; congruence).
    destruct (Nat.eqb_spec i' i) as [->|]; [|reflexivity]. split.
    - intros [st' [H1 H2]]. injection H1 as <-. eauto.
    - intros [st' [H1 H2]]. eexists. split; [reflexivity|]. cbn [cs_ways]. congruence.
  Qed.
  Lemma rep_CI : forall c i st r nt, CI c -> nth_error (c_sets c) i = Some st -> P r -> CI (mkCache (c_dec c) (put i (mkSet (cs_ways st) r nt) (c_sets c))).
  Proof.
    intros c i st r nt HC Hi HP. assert (HA := rep_at c i st r nt Hi). constructor.
    - apply (ci_dec _ HC).
    - cbn [c_sets]. rewrite put_len. apply (ci_len _ HC).
    - cbn [c_sets]. intros j sj. rewrite put_nth by (apply nth_error_Some; congruence). destruct (Nat.eqb j i); [|apply (ci_set _ HC)].
      intros E. injection E as <-. split; [|exact HP]. apply (ci_set _ HC i st Hi).
    - intros j v l A1. apply HA in A1. apply (ci_line _ HC _ _ _ A1).
    - intros j v l j' v' m b A1 A2. apply HA in A1. apply HA in A2. apply (ci_uniq _ HC _ _ _ _ _ _ _ A1 A2).
  Qed.
  Lemma touch_ok : forall c i w l (low : bool), CI c -> at_ c i w l ->
    exists c', (if low then touch_lru p c i w else touch_mru p c i w) = Done c' /\ CI c' /\ forall i' w' m, at_ c' i' w' m <-> at_ c i' w' m.
  Proof.
    intros c i w l low HC [st [H1 H2]]. destruct (ci_set _ HC i st H1) as [SL SP].
    assert (Hw : (w < W)%nat) by (rewrite <- SL; apply nth_error_Some; congruence).
    destruct low.
    - unfold touch_lru, nth_set. rewrite H1. cbn [obind]. destruct (po_low _ _ _ PO (cs_rep st) w SP Hw) as [r [E1 E2]]. rewrite E1. cbn [need obind].
      eexists. split; [reflexivity|]. split; [apply rep_CI; assumption|apply rep_at; assumption].
    - unfold touch_mru, nth_set. rewrite H1. cbn [obind]. destruct (po_mru _ _ _ PO (cs_rep st) w SP Hw) as [r [E1 E2]]. rewrite E1. cbn [need obind].
      eexists. split; [reflexivity|]. split; [apply rep_CI; assumption|apply rep_at; assumption].
  Qed.
  Lemma line_ok_ : forall c i w l l' , CI c -> at_ c i w l -> line_ok i l' ->
    (forall b i' w' m, blk l' = Some b -> at_ c i' w' m -> blk m = Some b -> i' = i /\ w' = w) ->
    exists c', with_line c i w l' = Done c' /\ CI c' /\ (forall i' w' m, at_ c' i' w' m <-> if Nat.eqb i' i && Nat.eqb w' w then m = l' else at_ c i' w' m) /\
      forall a, set_of c' a = set_of c a.
  Proof.
    intros c i w l l' HC [st [H1 H2]] HL HU. destruct (ci_set _ HC i st H1) as [SL SP].
    assert (Hw : (w < W)%nat) by (rewrite <- SL; apply nth_error_Some; congruence).
    unfold with_line, nth_set. rewrite H1. cbn [obind]. eexists. split; [reflexivity|]. split; [|split].
    - apply put_CI; assumption.
    - apply put_at; [assumption|lia].
    - intros a. unfold set_of. cbn [c_dec c_sets]. rewrite put_len. reflexivity.
  Qed.
  Lemma lru_item_ok : forall c a, CI c -> exists w l, lru_item p c a = Done (home a, w, l) /\ at_ c (home a) w l.
  Proof.
    intros c a HC. unfold lru_item. destruct (set_of_ok c a HC) as [st [E1 E2]]. rewrite E1. cbn [obind]. unfold nth_set. rewrite E2. cbn [obind].
    destruct (ci_set _ HC _ _ E2) as [SL SP]. destruct (po_lru _ _ _ PO _ SP) as [w [E3 E4]]. rewrite E3. cbn [need obind]. unfold way_line.
    destruct (nth_error (cs_ways st) w) as [l|] eqn:E; [|exfalso; apply nth_error_None in E; lia]. cbn [obind]. exists w, l. split; [reflexivity|]. exists st. auto.
  Qed.
  Lemma blk_none_put : forall c a, (forall i w l, at_ c i w l -> blk l <> Some (a / L)) -> forall l', blk l' = Some (a / L) ->
    forall b i' w' m i w, blk l' = Some b -> at_ c i' w' m -> blk m = Some b -> i' = i /\ w' = w.
  Proof. intros c a H l' E b i' w' m i w E1 A1 E2. exfalso. apply (H i' w' m A1). congruence. Qed.
  (** The line put in on a miss. *)
  Lemma fresh_line : forall a mdf nt data, a < 2 ^ 64 -> length data = N.to_nat L ->
    line_ok (home a) (mkLn true mdf (a / L * L) (a / L / S) nt data) /\ blk (mkLn true mdf (a / L * L) (a / L / S) nt data) = Some (a / L).
  Proof.
    intros a mdf nt data Ha HD. pose proof Lpos as LP. split.
    - split; [exact HD|]. intros _. exists (a / L). cbn [ln_tag ln_addr]. split; [|split; [unfold home; apply N2Nat.id|auto]].
      pose proof (N.mul_div_le a L). lia.
    - unfold blk. cbn [ln_valid ln_addr]. f_equal. apply N.div_mul. lia.
  Qed.
  Lemma blk_addr2 : forall a, a < 2 ^ 64 -> calc_block_addr d a = a / L * L /\ calc_block_addr d (a / L * L) = a / L * L /\
    calc_tag d (a / L * L) = Some (a / L / S).
  Proof.
    intros a Ha. pose proof Lpos as LP. assert (LE : a / L * L <= a) by (pose proof (N.mul_div_le a L); lia).
    split; [apply (do_blk _ _ _ DO); exact Ha|]. rewrite (do_blk _ _ _ DO) by lia. rewrite (do_tag _ _ _ DO), !N.div_mul by lia. auto.
  Qed.
  Lemma mget_length : forall m a n, length (mget m a n) = n.
  Proof. intros. unfold mget. rewrite map_length, seq_length. reflexivity. Qed.
  Lemma clear_ok : forall c, CI c -> CI (cache_clear p c) /\ forall i w l, at_ (cache_clear p c) i w l -> blk l = None.
  Proof.
    intros c HC. assert (HA : forall i w l, at_ (cache_clear p c) i w l -> exists l0, at_ c i w l0 /\ l = set_valid false l0).
    { intros i w l [st [H1 H2]]. unfold cache_clear in H1. cbn [c_sets] in H1. rewrite nth_error_map in H1. destruct (nth_error (c_sets c) i) as [s0|] eqn:E; [|discriminate].
      injection H1 as <-. cbn [cs_ways] in H2. rewrite nth_error_map in H2. destruct (nth_error (cs_ways s0) w) as [l0|] eqn:E2; [|discriminate]. injection H2 as <-.
      exists l0. split; [exists s0; auto|reflexivity]. }
    assert (HB : forall i w l, at_ (cache_clear p c) i w l -> blk l = None).
    { intros i w l A1. destruct (HA _ _ _ A1) as [l0 [_ ->]]. reflexivity. }
    split; [|exact HB]. constructor.
    - apply (ci_dec _ HC).
    - unfold cache_clear. cbn [c_sets]. rewrite map_length. apply (ci_len _ HC).
    - intros i st H. unfold cache_clear in H. cbn [c_sets] in H. rewrite nth_error_map in H. destruct (nth_error (c_sets c) i) as [s0|] eqn:E; [|discriminate].
      injection H as <-. cbn [cs_ways cs_rep]. rewrite map_length. destruct (ci_set _ HC _ _ E). split; [assumption|]. apply (po_reset _ _ _ PO). assumption.
    - intros i w l A1. destruct (HA _ _ _ A1) as [l0 [A2 ->]]. destruct (ci_line _ HC _ _ _ A2) as [Q _]. split; [exact Q|discriminate].
    - intros i w l i' w' l' b A1 A2 B1. rewrite (HB _ _ _ A1) in B1. discriminate.
  Qed.

  (** Finding or bringing in a line. *)
  Lemma get_line_ok : forall s a, CI (s_cache s) -> a < 2 ^ 64 ->
    exists s' w l, get_line p s a = Done (s', (home a, w)) /\ CI (s_cache s') /\ at_ (s_cache s') (home a) w l /\ blk l = Some (a / L) /\
      s_through s' = s_through s /\ s_alloc s' = s_alloc s /\
      ((at_ (s_cache s) (home a) w l /\ s_mem s' = s_mem s /\ forall i' w' m, at_ (s_cache s') i' w' m <-> at_ (s_cache s) i' w' m) \/
       ((forall i w l, at_ (s_cache s) i w l -> blk l <> Some (a / L)) /\
        exists l0, lru_item p (s_cache s) a = Done (home a, w, l0) /\ at_ (s_cache s) (home a) w l0 /\
          s_mem s' = (if ln_valid l0 && ln_mod l0 then mput (s_mem s) (ln_addr l0) (ln_data l0) else s_mem s) /\
          l = mkLn true false (a / L * L) (a / L / S) (ln_nt l0) (mget (s_mem s') (a / L * L) (N.to_nat L)) /\
          forall i' w' m, at_ (s_cache s') i' w' m <-> if Nat.eqb i' (home a) && Nat.eqb w' w then m = l else at_ (s_cache s) i' w' m)).
  Proof.
    intros s a HC Ha. unfold get_line. destruct (get_item_ok _ a HC) as [r [E1 E2]]. rewrite E1. cbn [obind]. destruct r as [w|].
    - destruct E2 as [l [A1 B1]]. cbn [obind]. destruct (touch_ok _ _ _ _ false HC A1) as [c' [T1 [T2 T3]]]. rewrite T1. cbn [obind].
      eexists _, w, l. split; [reflexivity|]. cbn [s_cache s_mem s_through s_alloc]. split; [exact T2|]. split; [apply T3; exact A1|]. split; [exact B1|].
      split; [reflexivity|]. split; [reflexivity|]. left. auto.
    - unfold replace_line. destruct (lru_item_ok _ a HC) as [w [l0 [F1 F2]]]. rewrite F1. cbn [obind]. rewrite (ci_dec _ HC).
      destruct (blk_addr2 a Ha) as [Q1 [Q2 Q3]]. rewrite Q1, Q2, Q3. cbn [need obind]. destruct (ci_line _ HC _ _ _ F2) as [LD _]. rewrite LD.
      set (m := if ln_valid l0 && ln_mod l0 then mput (s_mem s) (ln_addr l0) (ln_data l0) else s_mem s).
      set (l := mkLn true false (a / L * L) (a / L / S) (ln_nt l0) (mget m (a / L * L) (N.to_nat L))).
      destruct (fresh_line a false (ln_nt l0) (mget m (a / L * L) (N.to_nat L)) Ha (mget_length _ _ _)) as [K1 K2]. fold l in K1, K2.
      destruct (line_ok_ _ _ _ _ l HC F2 K1 (fun b i' w' m' => blk_none_put _ a E2 l K2 b i' w' m' (home a) w)) as [c1 [G1 [G2 [G3 _]]]].
      rewrite G1. cbn [obind s_cache]. assert (A1 : at_ c1 (home a) w l). { apply G3. rewrite !Nat.eqb_refl. reflexivity. }
      destruct (touch_ok _ _ _ _ false G2 A1) as [c' [T1 [T2 T3]]]. rewrite T1. cbn [obind].
      eexists _, w, l. split; [reflexivity|]. cbn [s_cache s_mem s_through s_alloc]. split; [exact T2|]. split; [apply T3; exact A1|]. split; [exact K2|].
      split; [reflexivity|]. split; [reflexivity|]. right. split; [exact E2|]. exists l0. split; [reflexivity|]. split; [exact F2|].
      split; [reflexivity|]. split; [reflexivity|]. intros i' w' m'. rewrite T3. apply G3.
  Qed.
End Cache.

(** The constructor. *)
Lemma make_CI : forall R (p : policy R) W P sz L stride kb l s dflt c, pol_ok p W P -> regular sz L stride (N.of_nat W) kb l s ->
  ln_valid dflt = false -> length (ln_data dflt) = N.to_nat L -> make_cache p sz L stride W kb dflt = Some c ->
  exists d, dec_ok d L (2 ^ s) /\ CI W P d L (2 ^ s) c /\ forall i w m, at_ c i w m -> m = dflt.
Proof.
  intros R p W P sz L stride kb l s dflt c PO HR HV HD HM. unfold make_cache in HM. destruct (make_decoder sz L stride (N.of_nat W) kb) as [d|] eqn:E; [|discriminate].
  pose proof (regular_dec _ _ _ _ _ _ _ _ HR E) as DO. injection HM as <-. exists d. split; [exact DO|].
  assert (NS : wrap 32 ((if kb then wrap 64 (sz * 1024) else sz) / wrap 64 (L * N.of_nat W)) = 2 ^ s).
  { destruct HR as [-> [-> [Hw0 [Hw [Hsz [Hov [Hs Hsl]]]]]]]. assert (S0 : 2 ^ s <> 0) by (apply N.pow_nonzero; lia).
    assert (L0 : 2 ^ l <> 0) by (apply N.pow_nonzero; lia).
    assert (S32 : 2 ^ s < 2 ^ 32) by (apply N.pow_lt_mono_r; lia).
    assert (Hway : 2 ^ l * N.of_nat W < 2 ^ 64) by nia.
    replace (if kb then wrap 64 (sz * 1024) else sz) with (2 ^ s * (2 ^ l * N.of_nat W)).
    2: { destruct kb; [|congruence]. unfold wrap. rewrite N.mod_small; congruence. }
    unfold wrap. rewrite (N.mod_small (2 ^ l * N.of_nat W)) by assumption. rewrite N.div_mul by nia. apply N.mod_small. assumption. }
  rewrite NS.
  assert (RA : forall i st, nth_error (repeat (mkSet (repeat dflt W) (p_new p) 0%nat) (N.to_nat (2 ^ s))) i = Some st -> st = mkSet (repeat dflt W) (p_new p) 0%nat).
  { intros i st H. apply nth_error_In in H. apply repeat_spec in H. exact H. }
  assert (HA : forall i w m, at_ (mkCache d (repeat (mkSet (repeat dflt W) (p_new p) 0%nat) (N.to_nat (2 ^ s)))) i w m -> m = dflt).
  { intros i w m [st [H1 H2]]. cbn [c_sets] in H1. apply RA in H1. subst st. cbn [cs_ways] in H2. apply nth_error_In in H2. apply repeat_spec in H2. exact H2. }
  split; [|exact HA]. constructor; cbn [c_dec c_sets].
  - reflexivity.
  - rewrite repeat_length. apply N2Nat.id.
  - intros i st H. apply RA in H. subst st. cbn [cs_ways cs_rep]. rewrite repeat_length. split; [reflexivity|apply (po_new _ _ _ PO)].
  - intros i w m A1. apply HA in A1. subst m. split; [exact HD|congruence].
  - intros i w m i' w' m' b A1 A2 B1 B2. apply HA in A1. subst m. unfold blk in B1. rewrite HV in B1. discriminate.
Qed.
