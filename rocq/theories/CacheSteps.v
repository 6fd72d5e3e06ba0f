(** Every call on a SimpleCache, and every round on a SimpleCache2, step by step. *)
From Coq Require Import List NArith Arith Bool Lia Permutation.
From Verif Require Import MathUtilsModel AddrDecodeModel AddrDecodeProps ReplacementModel ReplacementProps LayoutModel StorageModel CacheModel CacheProofs.
Import ListNotations.
Open Scope N_scope.

(** * The shipped policies *)
Lemma lru_pol_ok : forall W, (0 < W)%nat -> pol_ok (lru_policy W) W (fun r => Permutation r (seq 0 W)).
Proof.
  intros W HW. assert (UN : forall r w, Permutation r (seq 0 W) -> (w < W)%nat -> Permutation (w :: unlink w r) (seq 0 W)).
  { intros r w Hr Hw. assert (ND : NoDup r) by (eapply Permutation_NoDup; [apply Permutation_sym; exact Hr|apply seq_NoDup]).
    assert (IN : In w r) by (eapply Permutation_in; [apply Permutation_sym; exact Hr|apply in_seq; lia]).
    rewrite <- Hr. apply NoDup_Permutation; [|exact ND|].
    - constructor; [|apply NoDup_filter; exact ND]. unfold unlink. rewrite filter_In. rewrite Nat.eqb_refl. intros [_ Q]. discriminate.
    - intros x. unfold unlink. cbn [In]. rewrite filter_In. destruct (Nat.eqb_spec x w) as [->|Nx]; cbn; split; intuition; congruence. }
  constructor; cbn [lru_policy p_new p_lru p_mru p_low p_reset].
  - reflexivity.
  - intros r Hr. destruct r as [|w r]; [apply Permutation_length in Hr; rewrite seq_length in Hr; cbn in Hr; lia|]. exists w. split; [reflexivity|].
    assert (In w (seq 0 W)) by (eapply Permutation_in; [exact Hr|left; reflexivity]). apply in_seq in H. lia.
  - intros r w Hr Hw. unfold lru_touch_mru. assert (L : (w < length r)%nat) by (rewrite (Permutation_length Hr), seq_length; exact Hw).
    rewrite (proj2 (Nat.ltb_lt _ _) L). eexists. split; [reflexivity|]. rewrite <- (UN r w Hr Hw). apply Permutation_sym. apply Permutation_cons_append.
  - intros r w Hr Hw. unfold lru_touch_lru. assert (L : (w < length r)%nat) by (rewrite (Permutation_length Hr), seq_length; exact Hw).
    rewrite (proj2 (Nat.ltb_lt _ _) L). eexists. split; [reflexivity|]. apply UN; assumption.
  - auto.
Qed.
Lemma plru_pol_ok : forall k, pol_ok (plru_policy k) (2 ^ k) (fun _ => True).
Proof.
  intros k. constructor; cbn [plru_policy p_new p_lru p_mru p_low p_reset]; auto.
  - intros r _. eexists. split; [reflexivity|]. apply C45_legal_way.
  - intros r w _ Hw. destruct (C45_touch k r w Hw) as [[b [E _]] _]. eauto.
  - intros r w _ Hw. destruct (C45_touch k r w Hw) as [_ [b [E _]]]. eauto.
Qed.

(** * SimpleCache *)
Definition op_addr (o : sop) : N := match o with SRead a _ | SWrite a _ | SLine a | SInvalidate a | SHit a | SCastout a => a | _ => 0 end.
Section Steps.
  Context {R : Type} (p : policy R) (W : nat) (P : R -> Prop) (d : decoder) (L S : N).
  Hypothesis PO : pol_ok p W P.
  Hypothesis DO : dec_ok d L S.
  Notation CI := (CI W P d L S). Notation blk := (blk L). Notation home := (home L S).

  Definition absent (c : cache R) (b : N) : Prop := forall i w l, at_ c i w l -> blk l <> Some b.
  Definition holds (c : cache R) (b : N) : Prop := exists i w l, at_ c i w l /\ blk l = Some b.
  Lemma holds_dec : forall c b, CI c -> b * L < 2 ^ 64 -> holds c b \/ absent c b.
  Proof.
    intros c b HC Hb. pose proof (do_L _ _ _ DO) as LP. destruct (get_item_ok W P d L S DO c (b * L) HC) as [r [E1 E2]]. rewrite N.div_mul in E2 by lia. destruct r as [w|].
    - destruct E2 as [l [A1 B1]]. left. red. eauto.
    - right. exact E2.
  Qed.
  Lemma is_hit_ok : forall c a, CI c -> exists h, is_hit c a = Done h /\ (h = true <-> holds c (a / L)).
  Proof.
    intros c a HC. unfold is_hit. destruct (get_item_ok W P d L S DO c a HC) as [r [E1 E2]]. rewrite E1. cbn [obind]. eexists. split; [reflexivity|]. destruct r as [w|].
    - destruct E2 as [l [A1 B1]]. split; [intros _; red; eauto|reflexivity].
    - split; [discriminate|]. intros [i [w [l [A1 B1]]]]. exfalso. exact (E2 i w l A1 B1).
  Qed.
  (** Where a line ends up, as seen by lookups. *)
  Definition same_at (c c' : cache R) : Prop := forall i w l, at_ c' i w l <-> at_ c i w l.
  Definition one_at (c c' : cache R) (i w : nat) (l : line) : Prop := forall i' w' m, at_ c' i' w' m <-> if Nat.eqb i' i && Nat.eqb w' w then m = l else at_ c i' w' m.
  Lemma at_line : forall (c : cache R) i w l, at_ c i w l -> exists st, nth_set c i = Done st /\ way_line st w = Done l.
  Proof. intros c i w l [st [H1 H2]]. exists st. unfold nth_set, way_line. rewrite H1, H2. auto. Qed.
  Lemma blk_data : forall l mdf dt, blk (mkLn (ln_valid l) mdf (ln_addr l) (ln_tag l) (ln_nt l) dt) = blk l. Proof. reflexivity. Qed.
  Lemma line_ok_data : forall i l mdf dt, line_ok L S i l -> length dt = length (ln_data l) -> line_ok L S i (mkLn (ln_valid l) mdf (ln_addr l) (ln_tag l) (ln_nt l) dt).
  Proof. intros i l mdf dt [H1 H2] E. split; cbn [ln_data ln_valid ln_tag ln_addr]; [congruence|exact H2]. Qed.
  Lemma line_write_len : forall l off buf dt, line_write l off buf = Some dt -> length dt = length (ln_data l).
  Proof.
    intros l off buf dt H. unfold line_write in H. destruct (N.leb_spec (off + N.of_nat (length buf)) (N.of_nat (length (ln_data l)))); [|discriminate].
    injection H as <-. rewrite !app_length, firstn_length, skipn_length. lia.
  Qed.
  Lemma sc_invalidate_ok : forall s a, CI (s_cache s) -> a < 2 ^ 64 ->
    (absent (s_cache s) (a / L) /\ sc_invalidate p s a = Done (s, AThrown)) \/
    exists i w l s', at_ (s_cache s) i w l /\ blk l = Some (a / L) /\ sc_invalidate p s a = Done (s', ADone) /\ CI (s_cache s') /\
      s_through s' = s_through s /\ s_alloc s' = s_alloc s /\ s_mem s' = s_mem s /\ one_at (s_cache s) (s_cache s') i w (set_valid false l).
  Proof.
    intros s a HC Ha. unfold sc_invalidate. destruct (get_item_ok W P d L S DO _ a HC) as [r [E1 E2]]. rewrite E1. cbn [obind]. destruct r as [w|].
    - destruct E2 as [l [A1 B1]]. right. exists (home a), w, l. destruct (at_line _ _ _ _ A1) as [st [N1 N2]]. rewrite N1. cbn [obind]. rewrite N2. cbn [obind].
      destruct (line_ok_ W P d L S (s_cache s) (home a) w l (set_valid false l) HC A1) as [c1 [G1 [G2 [G3 G4]]]].
      { destruct (ci_line _ _ _ _ _ _ HC _ _ _ A1) as [Q _]. split; [exact Q|discriminate]. }
      { intros b i' w' m Q. discriminate. }
      rewrite G1. cbn [obind]. assert (LA : (ln_addr l / L) = a / L).
      { unfold CacheProofs.blk in B1. destruct (ln_valid l); congruence. }
      destruct (set_of_ok W P d L S DO c1 (ln_addr l) G2) as [st1 [K1 K2]]. rewrite K1. cbn [obind]. rewrite LA in *. fold (home a) in *.
      assert (A2 : at_ c1 (home a) w (set_valid false l)). { apply G3. rewrite !Nat.eqb_refl. reflexivity. }
      destruct (touch_ok p W P d L S PO c1 _ _ _ true G2 A2) as [c2 [T1 [T2 T3]]]. rewrite T1. cbn [obind].
      eexists. split; [exact A1|]. split; [exact B1|]. split; [reflexivity|]. cbn [s_cache s_through s_alloc s_mem]. split; [exact T2|]. repeat (split; [reflexivity|]).
      intros i' w' m. rewrite T3. apply G3.
    - left. auto.
  Qed.
  (** Reads: getLine with something read from the line. *)
  Lemma write_ok : forall s a buf, CI (s_cache s) -> a < 2 ^ 64 ->
    (absent (s_cache s) (a / L) /\ s_alloc s = false /\ sc_write p s a buf = Done (mkSimple (s_cache s) (s_through s) (s_alloc s) (mput (s_mem s) a buf), ADone)) \/
    ((holds (s_cache s) (a / L) \/ s_alloc s = true) /\ exists s1 w l, get_line p s a = Done (s1, (home a, w)) /\ at_ (s_cache s1) (home a) w l /\ blk l = Some (a / L) /\
      match line_write l (a mod L) buf with
      | None => sc_write p s a buf = Done (s1, AThrown)
      | Some dt => exists c', sc_write p s a buf = Done (mkSimple c' (s_through s) (s_alloc s) (if s_through s then mput (s_mem s1) a buf else s_mem s1), ADone) /\
          CI c' /\ one_at (s_cache s1) c' (home a) w (mkLn (ln_valid l) true (ln_addr l) (ln_tag l) (ln_nt l) dt)
      end).
  Proof.
    intros s a buf HC Ha. unfold sc_write. destruct (get_item_ok W P d L S DO _ a HC) as [r [E1 E2]]. rewrite E1. cbn [obind].
    destruct (match r with None => true | _ => false end && negb (s_alloc s)) eqn:EM.
    - left. destruct r as [w|]; [discriminate|]. cbn in EM. destruct (s_alloc s); [discriminate|]. auto.
    - right. split.
      { destruct r as [w|]; [left; destruct E2 as [l [A1 B1]]; red; eauto|]. right. cbn in EM. destruct (s_alloc s); [reflexivity|discriminate]. }
      destruct (get_line_ok p W P d L S PO DO s a HC Ha) as [s1 [w [l [E [HC1 [A1 [B1 [M1 [M2 _]]]]]]]]]. exists s1, w, l. split; [exact E|]. split; [exact A1|]. split; [exact B1|].
      rewrite E. cbn [obind]. destruct (at_line _ _ _ _ A1) as [st [N1 N2]]. rewrite N1. cbn [obind]. rewrite N2. cbn [obind].
      rewrite (ci_dec _ _ _ _ _ _ HC1), (do_off _ _ _ DO). destruct (line_write l (a mod L) buf) as [dt|] eqn:EW; [|reflexivity].
      set (l' := mkLn (ln_valid l) true (ln_addr l) (ln_tag l) (ln_nt l) dt).
      destruct (line_ok_ W P d L S (s_cache s1) (home a) w l l' HC1 A1) as [c' [G1 [G2 [G3 _]]]].
      { apply line_ok_data; [apply (ci_line _ _ _ _ _ _ HC1 _ _ _ A1)|]. apply (line_write_len _ _ _ _ EW). }
      { intros b i' w' m Q A2 B2. apply (ci_uniq _ _ _ _ _ _ HC1 _ _ _ _ _ _ b A2 A1 B2). exact Q. }
      rewrite G1. cbn [obind]. rewrite M1, M2. exists c'. auto.
  Qed.
  (** Every call is defined and keeps the invariant. *)
  Lemma sstep_CI : forall s o, CI (s_cache s) -> op_addr o < 2 ^ 64 -> exists s' r, sstep p s o = Done (s', r) /\ CI (s_cache s').
  Proof.
    intros s o HC Ha. destruct o as [a n|a buf|a|a| |a|a|b|b]; cbn [op_addr sstep] in *.
    - destruct (get_line_ok p W P d L S PO DO s a HC Ha) as [s1 [w [l [E [HC1 [A1 _]]]]]]. unfold sc_read. rewrite E. cbn [obind].
      destruct (at_line _ _ _ _ A1) as [st [N1 N2]]. rewrite N1. cbn [obind]. rewrite N2. cbn [obind]. eauto.
    - destruct (write_ok s a buf HC Ha) as [[_ [_ E]]|[_ [s1 [w [l [E0 [A1 [B1 E]]]]]]]]; [rewrite E; eauto|].
      destruct (line_write l (a mod L) buf) as [dt|].
      + destruct E as [c' [E [HC' _]]]. rewrite E. eauto.
      + rewrite E. destruct (get_line_ok p W P d L S PO DO s a HC Ha) as [s1' [w' [l' [E1 [HC1 _]]]]]. rewrite E0 in E1. injection E1 as <- _. eauto.
    - destruct (get_line_ok p W P d L S PO DO s a HC Ha) as [s1 [w [l [E [HC1 [A1 _]]]]]]. unfold sc_line. rewrite E. cbn [obind].
      destruct (at_line _ _ _ _ A1) as [st [N1 N2]]. rewrite N1. cbn [obind]. rewrite N2. cbn [obind]. eauto.
    - destruct (sc_invalidate_ok s a HC Ha) as [[_ E]|[i [w [l [s' [A1 [B1 [E [HC' _]]]]]]]]]; rewrite E; eauto.
    - eexists _, _. split; [reflexivity|]. cbn [s_cache]. apply (clear_ok p W P d L S PO). exact HC.
    - destruct (is_hit_ok _ a HC) as [h [E _]]. rewrite E. cbn [obind]. eauto.
    - unfold hit_castout. destruct (get_item_ok W P d L S DO _ a HC) as [r [E1 E2]]. rewrite E1. cbn [obind]. destruct r as [w|]; cbn [obind]; [eauto|].
      destruct (lru_item_ok p W P d L S PO DO _ a HC) as [w [l [F1 F2]]]. rewrite F1. cbn [obind]. eauto.
    - eexists _, _. split; [reflexivity|]. exact HC.
    - eexists _, _. split; [reflexivity|]. exact HC.
  Qed.
  Lemma srun_CI : forall ops s, CI (s_cache s) -> Forall (fun o => op_addr o < 2 ^ 64) ops -> exists s' rs, srun p s ops = Done (s', rs) /\ CI (s_cache s').
  Proof.
    induction ops as [|o ops IH]; intros s HC HF; cbn [srun]; [eauto|]. inversion HF as [|? ? H1 H2]. subst.
    destruct (sstep_CI s o HC H1) as [s1 [r [E HC1]]]. rewrite E. cbn [obind]. destruct (IH s1 HC1 H2) as [s2 [rs [E2 HC2]]]. rewrite E2. cbn [obind]. eauto.
  Qed.

  (** * What the data is *)
  Lemma mget_ext : forall (A B : N -> N) a n, (forall x, a <= x -> x < a + N.of_nat n -> A x = B x) -> mget A a n = mget B a n.
  Proof. intros A B a n H. unfold mget. apply map_ext_in. intros i Hi. apply in_seq in Hi. apply H; lia. Qed.
  Lemma in_block : forall b x, b * L <= x -> x < b * L + L -> x / L = b.
  Proof. intros b x H1 H2. pose proof (do_L _ _ _ DO) as LP. symmetry. apply N.div_unique with (r := x - b * L); lia. Qed.
  Lemma block_in : forall x, x / L * L <= x /\ x < x / L * L + L.
  Proof. intros x. pose proof (do_L _ _ _ DO) as LP. pose proof (N.div_mod x L). pose proof (N.mod_upper_bound x L). lia. Qed.
  Lemma mget_nth : forall m a n i, (i < n)%nat -> nth i (mget m a n) 0 = m (a + N.of_nat i).
  Proof.
    intros m a n i H. unfold mget. rewrite (nth_indep _ _ (m (a + N.of_nat 0))) by (rewrite map_length, seq_length; lia).
    rewrite (map_nth (fun i => m (a + N.of_nat i))). rewrite seq_nth by lia. reflexivity.
  Qed.
  Lemma mput_block : forall M A b x, mput M (b * L) (mget A (b * L) (N.to_nat L)) x = if x / L =? b then A x else M x.
  Proof.
    intros M A b x. unfold mput. rewrite mget_length, N2Nat.id. destruct (N.eqb_spec (x / L) b) as [E|E].
    - subst b. pose proof (block_in x) as [Q1 Q2]. rewrite (proj2 (N.leb_le _ _) Q1), (proj2 (N.ltb_lt _ _) Q2). cbn [andb].
      rewrite mget_nth by lia. f_equal. lia.
    - destruct ((b * L <=? x) && (x <? b * L + L)) eqn:Q; [|reflexivity]. apply andb_prop in Q. destruct Q as [Q1 Q2]. apply N.leb_le in Q1. apply N.ltb_lt in Q2.
      exfalso. apply E. apply in_block; assumption.
  Qed.
  Lemma mput_other : forall M a buf x, a mod L + N.of_nat (length buf) <= L -> x / L <> a / L -> mput M a buf x = M x.
  Proof.
    intros M a buf x H E. unfold mput. destruct ((a <=? x) && (x <? a + N.of_nat (length buf))) eqn:Q; [|reflexivity].
    apply andb_prop in Q. destruct Q as [Q1 Q2]. apply N.leb_le in Q1. apply N.ltb_lt in Q2. exfalso. apply E.
    pose proof (do_L _ _ _ DO) as LP. pose proof (N.div_mod a L). apply in_block; lia.
  Qed.
  Lemma mput_same : forall M A a buf x, M x = A x -> mput M a buf x = mput A a buf x.
  Proof. intros M A a buf x H. unfold mput. destruct ((a <=? x) && _); [reflexivity|exact H]. Qed.
  Lemma mget_firstn : forall m a n k, (k <= n)%nat -> firstn k (mget m a n) = mget m a k.
  Proof. intros m a n k H. unfold mget. rewrite firstn_map. f_equal. replace n with (k + (n - k))%nat by lia. rewrite seq_app, firstn_app, seq_length, Nat.sub_diag, firstn_all2 by (rewrite seq_length; lia). apply app_nil_r. Qed.
  Lemma mget_skipn : forall m a n k, (k <= n)%nat -> skipn k (mget m a n) = mget m (a + N.of_nat k) (n - k).
  Proof.
    intros m a n k H. unfold mget. rewrite skipn_map. replace n with (k + (n - k))%nat at 1 by lia. rewrite seq_app, skipn_app, seq_length, Nat.sub_diag, skipn_all2 by (rewrite seq_length; lia).
    cbn [skipn app]. generalize (n - k)%nat as j. clear H n. intros j.
    assert (Q : forall j s, map (fun i => m (a + N.of_nat i)) (seq (s + k) j) = map (fun i => m (a + N.of_nat k + N.of_nat i)) (seq s j)).
    { induction j0 as [|j0 IH]; intros s; [reflexivity|]. cbn [seq map]. f_equal; [f_equal; lia|]. apply (IH (Datatypes.S s)). }
    apply (Q j 0%nat).
  Qed.
  Lemma read_block : forall A a n l, ln_data l = mget A (a / L * L) (N.to_nat L) ->
    line_read l (a mod L) n = if a mod L + n <=? L then Some (mget A a (N.to_nat n)) else None.
  Proof.
    intros A a n l E. unfold line_read. rewrite E, mget_length, N2Nat.id. destruct (N.leb_spec (a mod L + n) L) as [H|H]; [|reflexivity]. f_equal.
    pose proof (do_L _ _ _ DO) as LP. pose proof (N.div_mod a L) as DM. rewrite mget_skipn by lia. rewrite mget_firstn by lia. f_equal. lia.
  Qed.
  Lemma write_block : forall A a buf l, ln_data l = mget A (a / L * L) (N.to_nat L) ->
    line_write l (a mod L) buf = if a mod L + N.of_nat (length buf) <=? L then Some (mget (mput A a buf) (a / L * L) (N.to_nat L)) else None.
  Proof.
    intros A a buf l E. unfold line_write. rewrite E, mget_length, N2Nat.id. destruct (N.leb_spec (a mod L + N.of_nat (length buf)) L) as [H|H]; [|reflexivity]. f_equal.
    pose proof (do_L _ _ _ DO) as LP. pose proof (N.div_mod a L) as DM. set (o := a mod L) in *.
    assert (NE : forall (l1 l2 : list N), length l1 = length l2 -> (forall i, (i < length l1)%nat -> nth i l1 0 = nth i l2 0) -> l1 = l2) by (intros; apply (nth_ext _ _ 0 0); assumption).
    rewrite mget_firstn, mget_skipn by lia. apply NE.
    - rewrite !app_length, !mget_length. lia.
    - intros i Hi. rewrite !app_length, !mget_length in Hi. rewrite (mget_nth (mput A a buf)) by lia. unfold mput.
      destruct (Nat.ltb_spec i (N.to_nat o)) as [H1|H1].
      + rewrite app_nth1 by (rewrite mget_length; lia). rewrite mget_nth by lia. destruct (N.leb_spec a (a / L * L + N.of_nat i)); [lia|reflexivity].
      + rewrite app_nth2 by (rewrite mget_length; lia). rewrite mget_length. destruct (Nat.ltb_spec (i - N.to_nat o) (length buf)) as [H2|H2].
        * rewrite app_nth1 by lia. destruct (N.leb_spec a (a / L * L + N.of_nat i)); [|lia].
          destruct (N.ltb_spec (a / L * L + N.of_nat i) (a + N.of_nat (length buf))); [|lia]. cbn [andb]. f_equal. lia.
        * rewrite app_nth2 by lia. rewrite mget_nth by lia. destruct (N.ltb_spec (a / L * L + N.of_nat i) (a + N.of_nat (length buf))); [lia|].
          rewrite andb_false_r. f_equal. lia.
  Qed.

  (** A = what the client should see; D = blocks written while write-back was in force. *)
  Record SI (A : N -> N) (D : N -> bool) (s : simple R) : Prop := mkSI {
    si_ci : CI (s_cache s);
    si_line : forall i w l b, at_ (s_cache s) i w l -> blk l = Some b -> ln_data l = mget A (b * L) (N.to_nat L) /\ (ln_mod l = false -> forall x, x / L = b -> s_mem s x = A x);
    si_abs : forall x, absent (s_cache s) (x / L) -> s_mem s x = A x;
    si_clean : forall x, D (x / L) = false -> s_mem s x = A x }.

  Lemma get_line_SI : forall A D s a s' i w, SI A D s -> a < 2 ^ 64 -> get_line p s a = Done (s', (i, w)) -> SI A D s'.
  Proof.
    intros A D s a s' i w [HC HL HA HD] Ha E. destruct (get_line_ok p W P d L S PO DO s a HC Ha) as [s1 [w1 [l [E1 [HC1 [A1 [B1 [M1 [M2 K]]]]]]]]].
    rewrite E in E1. injection E1 as <- -> <-. destruct K as [[K1 [K2 K3]]|[K1 [l0 [K2 [K3 [K4 [K5 K6]]]]]]].
    - constructor; [exact HC1| | |].
      + intros i' w' m b A2 B2. rewrite K2. apply (HL i' w' m b (proj1 (K3 _ _ _) A2) B2).
      + intros x Hx. rewrite K2. apply HA. intros i' w' m A2. apply (Hx i' w' m). apply K3. exact A2.
      + intros x Hx. rewrite K2. auto.
    - assert (MA : forall x, s_mem s x = A x -> s_mem s' x = A x).
      { intros x Hx. rewrite K4. destruct (ln_valid l0 && ln_mod l0) eqn:EV; [|exact Hx]. apply andb_prop in EV. destruct EV as [EV1 EV2].
        destruct (ci_line _ _ _ _ _ _ HC _ _ _ K3) as [_ LK]. destruct (LK EV1) as [b0 [_ [_ [_ LA]]]].
        assert (B0 : blk l0 = Some b0). { unfold CacheProofs.blk. rewrite EV1, LA, N.div_mul; [reflexivity|]. pose proof (do_L _ _ _ DO). lia. }
        destruct (HL _ _ _ _ K3 B0) as [DT _]. rewrite LA, DT, mput_block. destruct (x / L =? b0); [reflexivity|exact Hx]. }
      assert (MV : forall b0 x, blk l0 = Some b0 -> x / L = b0 -> s_mem s' x = A x).
      { intros b0 x B0 Hx. destruct (HL _ _ _ _ K3 B0) as [DT CL]. destruct (ln_mod l0) eqn:EM; [|apply MA; apply CL; auto].
        assert (EV1 : ln_valid l0 = true) by (unfold CacheProofs.blk in B0; destruct (ln_valid l0); [reflexivity|discriminate]).
        destruct (ci_line _ _ _ _ _ _ HC _ _ _ K3) as [_ LK]. destruct (LK EV1) as [b1 [_ [_ [_ LA]]]].
        assert (b1 = b0). { unfold CacheProofs.blk in B0. rewrite EV1, LA, N.div_mul in B0; [congruence|]. pose proof (do_L _ _ _ DO). lia. } subst b1.
        rewrite K4, EV1. cbn [andb]. rewrite LA, DT, mput_block, Hx, N.eqb_refl. reflexivity. }
      assert (MB : forall x, x / L = a / L -> s_mem s' x = A x).
      { intros x Hx. apply MA. apply HA. rewrite Hx. exact K1. }
      constructor; [exact HC1| | |].
      + intros i' w' m b A2 B2. apply K6 in A2. destruct (Nat.eqb i' (home a) && Nat.eqb w' w).
        * subst m. rewrite B1 in B2. injection B2 as <-. rewrite K5. cbn [ln_data ln_mod]. split; [|intros _ x Hx; apply MB; exact Hx].
          apply mget_ext. intros x Q1 Q2. apply MB. apply in_block; lia.
        * destruct (HL _ _ _ _ A2 B2) as [DT CL]. split; [exact DT|]. intros Q x Hx. apply MA. apply CL; assumption.
      + intros x Hx.
        assert (DE : blk l0 = Some (x / L) \/ blk l0 <> Some (x / L)) by (destruct (blk l0) as [b|]; [destruct (N.eq_dec b (x / L)); [left|right]; congruence|right; discriminate]).
        destruct DE as [B0|B0]; [apply (MV _ x B0 eq_refl)|]. apply MA. apply HA. intros i' w' m A2 B2.
        destruct (Nat.eqb i' (home a) && Nat.eqb w' w) eqn:EQ.
        * apply andb_prop in EQ. destruct EQ as [Q1 Q2]. apply Nat.eqb_eq in Q1, Q2. subst i' w'. pose proof (at_fun _ _ _ _ _ A2 K3). subst m. contradiction.
        * apply (Hx i' w' m); [|exact B2]. apply K6. rewrite EQ. exact A2.
      + intros x Hx. apply MA. auto.
  Qed.
End Steps.
