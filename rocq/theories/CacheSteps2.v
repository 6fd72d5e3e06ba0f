(** SimpleCache2 round by round, and the order in which LRU hands out ways. *)
From Coq Require Import List NArith Arith Bool Lia Permutation.
From Verif Require Import MathUtilsModel AddrDecodeModel AddrDecodeProps ReplacementModel ReplacementProps LayoutModel StorageModel CacheModel CacheProofs CacheSteps.
Import ListNotations.
Open Scope N_scope.

Definition top_addr (o : top) : N := match o with TFill a _ _ | TRead a _ | TWrite a _ | TLow a | TMru a | TDrop a => a | TClear => 0 end.
(** The non-temporal choice looks at ways 0 and 1. *)
Definition top_ok (W : nat) (o : top) : Prop := top_addr o < 2 ^ 64 /\ match o with TFill _ (ByNT true) _ => (2 <= W)%nat | _ => True end.
Section Steps2.
  Context {R : Type} (p : policy R) (W : nat) (P : R -> Prop) (d : decoder) (L S : N).
  Hypothesis PO : pol_ok p W P.
  Hypothesis DO : dec_ok d L S.
  Notation CI := (CI W P d L S). Notation blk := (blk L). Notation home := (home L S).

  Lemma find_invalid_le : forall ws, (find_invalid ws <= length ws)%nat.
  Proof. induction ws as [|l ws IH]; cbn [find_invalid length]; [lia|]. destruct (negb (ln_valid l)); lia. Qed.
  Lemma victim_ok : forall c a k, CI c -> (k = ByNT true -> (2 <= W)%nat) -> exists w l, victim p c a k = Done (home a, w) /\ at_ c (home a) w l.
  Proof.
    intros c a k HC HK. unfold victim. destruct (set_of_ok W P d L S DO c a HC) as [st [E1 E2]]. rewrite E1. cbn [obind]. fold (home a) in *. unfold nth_set. rewrite E2. cbn [obind].
    destruct (ci_set _ _ _ _ _ _ HC _ _ E2) as [SL SP]. destruct (po_lru _ _ _ PO _ SP) as [v [E3 E4]].
    assert (AT : forall w, (w < W)%nat -> exists l, at_ c (home a) w l).
    { intros w Hw. destruct (nth_error (cs_ways st) w) as [l|] eqn:E; [exists l, st; auto|]. apply nth_error_None in E. lia. }
    assert (VL : obind (need (p_lru p (cs_rep st))) (fun v => obind (way_line st v) (fun _ => Done (home a, v))) = Done (home a, v)).
    { rewrite E3. cbn [need obind]. unfold way_line. destruct (nth_error (cs_ways st) v) eqn:E; [reflexivity|]. apply nth_error_None in E. lia. }
    destruct k as [| |[]].
    - destruct (AT v E4) as [l Hl]. exists v, l. auto.
    - cbn zeta. destruct (Nat.ltb_spec (find_invalid (cs_ways st)) (length (cs_ways st))) as [H|H].
      + destruct (AT (find_invalid (cs_ways st)) ltac:(lia)) as [l Hl]. eauto.
      + destruct (AT v E4) as [l Hl]. exists v, l. auto.
    - specialize (HK eq_refl). destruct (AT 0%nat ltac:(lia)) as [l0 H0]. destruct (AT 1%nat ltac:(lia)) as [l1 H1].
      destruct H0 as [s0 [G0 G0']]. destruct H1 as [s1 [G1 G1']]. assert (s0 = st) by congruence. assert (s1 = st) by congruence. subst s0 s1. rewrite G0', G1'.
      destruct (negb (ln_nt l0)); [exists 0%nat, l0; split; [reflexivity|exists st; auto]|]. destruct (negb (ln_nt l1)); [exists 1%nat, l1; split; [reflexivity|exists st; auto]|].
      destruct (Nat.eqb (cs_nt st) 0); [exists 0%nat, l0|exists 1%nat, l1]; (split; [reflexivity|exists st; auto]).
    - destruct (AT v E4) as [l Hl]. exists v, l. auto.
  Qed.
  Lemma s2_alloc_ok : forall c a w l nt, CI c -> a < 2 ^ 64 -> at_ c (home a) w l -> absent L c (a / L) ->
    exists c' l', s2_alloc p c (home a) w a nt = Done c' /\ CI c' /\ blk l' = Some (a / L) /\ one_at c c' (home a) w l'.
  Proof.
    intros c a w l nt HC Ha A1 AB. unfold s2_alloc. destruct (at_line _ _ _ _ A1) as [st [N1 N2]]. rewrite N1. cbn [obind]. rewrite N2. cbn [obind].
    rewrite (ci_dec _ _ _ _ _ _ HC). destruct (blk_addr2 d L S DO a Ha) as [Q1 _]. rewrite Q1, (do_tag _ _ _ DO). cbn [need obind].
    set (n := match nt with Some b => b | None => ln_nt l end). set (l' := mkLn true false (a / L * L) (a / L / S) n (ln_data l)).
    destruct (ci_line _ _ _ _ _ _ HC _ _ _ A1) as [LD _]. destruct (fresh_line d L S DO a false n (ln_data l) Ha LD) as [K1 K2]. fold l' in K1, K2.
    destruct (line_ok_ W P d L S c (home a) w l l' HC A1 K1 (fun b i' w' m' => blk_none_put L c a AB l' K2 b i' w' m' (home a) w)) as [c1 [G1 [G2 [G3 _]]]].
    rewrite G1. cbn [obind]. assert (A2 : at_ c1 (home a) w l') by (apply G3; rewrite !Nat.eqb_refl; reflexivity).
    assert (NT : exists c2, match nt with
               | Some true => obind (set_of c1 a) (fun j => obind (nth_set c1 j) (fun sj =>
                                Done (mkCache (c_dec c1) (put j (mkSet (cs_ways sj) (cs_rep sj) w) (c_sets c1)))))
               | _ => Done c1 end = Done c2 /\ CI c2 /\ forall i' w' m, at_ c2 i' w' m <-> at_ c1 i' w' m).
    { destruct nt as [[]|]; try (exists c1; split; [reflexivity|]; split; [exact G2|reflexivity]).
      destruct (set_of_ok W P d L S DO c1 a G2) as [sj [E1 E2]]. rewrite E1. cbn [obind]. unfold nth_set. rewrite E2. cbn [obind]. eexists. split; [reflexivity|].
      split; [apply rep_CI; [exact G2|exact E2|apply (ci_set _ _ _ _ _ _ G2 _ _ E2)]|apply rep_at; exact E2]. }
    destruct NT as [c2 [T1 [T2 T3]]]. rewrite T1. cbn [obind]. destruct (touch_ok p W P d L S PO c2 (home a) w l' false T2 (proj2 (T3 _ _ _) A2)) as [c3 [U1 [U2 U3]]].
    exists c3, l'. split; [exact U1|]. split; [exact U2|]. split; [exact K2|]. intros i' w' m. rewrite U3, T3. apply G3.
  Qed.
  Lemma s2_invalidate_ok : forall c i w l, CI c -> at_ c i w l -> exists c' l', s2_invalidate p c i w = Done c' /\ CI c' /\ blk l' = None /\ one_at c c' i w l'.
  Proof.
    intros c i w l HC A1. unfold s2_invalidate. destruct (at_line _ _ _ _ A1) as [st [N1 N2]]. rewrite N1. cbn [obind]. rewrite N2. cbn [obind].
    rewrite (ci_dec _ _ _ _ _ _ HC), (do_tag _ _ _ DO). cbn [need obind]. set (l' := mkLn false false (calc_block_addr d 0) (0 / L / S) false (ln_data l)).
    destruct (ci_line _ _ _ _ _ _ HC _ _ _ A1) as [LD _].
    destruct (line_ok_ W P d L S c i w l l' HC A1) as [c1 [G1 [G2 [G3 _]]]]; [split; [exact LD|discriminate]|intros b i' w' m Q; discriminate|].
    rewrite G1. cbn [obind]. assert (A2 : at_ c1 i w l') by (apply G3; rewrite !Nat.eqb_refl; reflexivity).
    destruct (touch_ok p W P d L S PO c1 i w l' true G2 A2) as [c3 [U1 [U2 U3]]]. exists c3, l'. split; [exact U1|]. split; [exact U2|]. split; [reflexivity|].
    intros i' w' m. rewrite U3. apply G3.
  Qed.
  (** What one round does. *)
  Lemma tstep_ok : forall c o, CI c -> top_ok W o -> exists c' r, tstep p c o = Done (c', r) /\ CI c' /\
    match o with
    | TFill a k nt => (holds L c (a / L) /\ c' = c /\ r = AHit true) \/
        (absent L c (a / L) /\ exists w l l', victim p c a k = Done (home a, w) /\ at_ c (home a) w l /\ blk l' = Some (a / L) /\ one_at c c' (home a) w l')
    | TDrop a => forall b, holds L c' b <-> holds L c b /\ b <> a / L
    | TClear => forall b, absent L c' b
    | TRead _ _ | TWrite _ _ | TLow _ | TMru _ => forall b, holds L c' b <-> holds L c b
    end.
  Proof.
    intros c o HC [Ha HK]. assert (SA : forall c' : cache R, (forall i' w' m, at_ c' i' w' m <-> at_ c i' w' m) -> forall b, holds L c' b <-> holds L c b).
    { intros c' H b. unfold holds. split; intros [i [w [l [Q1 Q2]]]]; exists i, w, l; (split; [apply H; exact Q1|exact Q2]). }
    destruct o as [a k nt|a n|a buf|a|a|a|]; cbn [tstep top_addr] in *.
    - destruct (get_item_ok W P d L S DO c a HC) as [r [E1 E2]]. rewrite E1. cbn [obind]. destruct r as [w|].
      + destruct E2 as [l [A1 B1]]. exists c, (AHit true). split; [reflexivity|]. split; [exact HC|]. left. split; [|auto]. red. eauto.
      + destruct (victim_ok c a k HC) as [w [l [V1 V2]]]. { intros ->. exact HK. }
        rewrite V1. cbn [obind]. destruct (s2_alloc_ok c a w l nt HC Ha V2 E2) as [c' [l' [S1 [S2 [S3 S4]]]]]. rewrite S1. cbn [obind].
        eexists _, _. split; [reflexivity|]. split; [exact S2|]. right. split; [exact E2|]. exists w, l, l'. auto.
    - destruct (get_item_ok W P d L S DO c a HC) as [r [E1 E2]]. rewrite E1. cbn [obind]. destruct r as [w|]; [|eexists _, _; split; [reflexivity|]; split; [exact HC|reflexivity]].
      destruct E2 as [l [A1 B1]]. unfold s2_read. destruct (at_line _ _ _ _ A1) as [st [N1 N2]]. rewrite N1. cbn [obind]. rewrite N2. cbn [obind].
      destruct (line_read l (calc_block_offset (c_dec c) a) n); [|eexists _, _; split; [reflexivity|]; split; [exact HC|reflexivity]].
      destruct (touch_ok p W P d L S PO c _ _ _ false HC A1) as [c' [T1 [T2 T3]]]. rewrite T1. cbn [obind]. eexists _, _. split; [reflexivity|]. split; [exact T2|]. apply SA. exact T3.
    - destruct (get_item_ok W P d L S DO c a HC) as [r [E1 E2]]. rewrite E1. cbn [obind]. destruct r as [w|]; [|eexists _, _; split; [reflexivity|]; split; [exact HC|reflexivity]].
      destruct E2 as [l [A1 B1]]. unfold s2_write. destruct (at_line _ _ _ _ A1) as [st [N1 N2]]. rewrite N1. cbn [obind]. rewrite N2. cbn [obind].
      destruct (line_write l (calc_block_offset (c_dec c) a) buf) as [dt|] eqn:EW; [|eexists _, _; split; [reflexivity|]; split; [exact HC|reflexivity]].
      set (l' := mkLn (ln_valid l) true (ln_addr l) (ln_tag l) (ln_nt l) dt).
      destruct (line_ok_ W P d L S c (home a) w l l' HC A1) as [c1 [G1 [G2 [G3 _]]]].
      { apply line_ok_data; [apply (ci_line _ _ _ _ _ _ HC _ _ _ A1)|]. apply (line_write_len _ _ _ _ EW). }
      { intros b i' w' m Q A2 B2. apply (ci_uniq _ _ _ _ _ _ HC _ _ _ _ _ _ b A2 A1 B2). exact Q. }
      rewrite G1. cbn [obind]. assert (A2 : at_ c1 (home a) w l') by (apply G3; rewrite !Nat.eqb_refl; reflexivity).
      destruct (touch_ok p W P d L S PO c1 _ _ _ false G2 A2) as [c' [T1 [T2 T3]]]. rewrite T1. cbn [obind]. eexists _, _. split; [reflexivity|]. split; [exact T2|].
      intros b. unfold holds. split; intros [i [v [m [Q1 Q2]]]].
      + apply T3, G3 in Q1. destruct (Nat.eqb i (home a) && Nat.eqb v w); [|eauto]. subst m. exists (home a), w, l. split; [exact A1|exact Q2].
      + destruct (Nat.eqb i (home a) && Nat.eqb v w) eqn:EQ.
        * apply andb_prop in EQ. destruct EQ as [X Y]. apply Nat.eqb_eq in X, Y. subst i v. pose proof (at_fun _ _ _ _ _ Q1 A1). subst m.
          exists (home a), w, l'. split; [apply T3; exact A2|exact Q2].
        * exists i, v, m. split; [|exact Q2]. apply T3, G3. rewrite EQ. exact Q1.
    - destruct (get_item_ok W P d L S DO c a HC) as [r [E1 E2]]. rewrite E1. cbn [obind]. destruct r as [w|]; [|eexists _, _; split; [reflexivity|]; split; [exact HC|reflexivity]].
      destruct E2 as [l [A1 B1]]. destruct (touch_ok p W P d L S PO c _ _ _ true HC A1) as [c' [T1 [T2 T3]]]. rewrite T1. cbn [obind].
      eexists _, _. split; [reflexivity|]. split; [exact T2|]. apply SA. exact T3.
    - destruct (get_item_ok W P d L S DO c a HC) as [r [E1 E2]]. rewrite E1. cbn [obind]. destruct r as [w|]; [|eexists _, _; split; [reflexivity|]; split; [exact HC|reflexivity]].
      destruct E2 as [l [A1 B1]]. destruct (touch_ok p W P d L S PO c _ _ _ false HC A1) as [c' [T1 [T2 T3]]]. rewrite T1. cbn [obind].
      eexists _, _. split; [reflexivity|]. split; [exact T2|]. apply SA. exact T3.
    - destruct (get_item_ok W P d L S DO c a HC) as [r [E1 E2]]. rewrite E1. cbn [obind]. destruct r as [w|].
      + destruct E2 as [l [A1 B1]]. destruct (s2_invalidate_ok c _ _ _ HC A1) as [c' [l' [S1 [S2 [S3 S4]]]]]. rewrite S1. cbn [obind].
        eexists _, _. split; [reflexivity|]. split; [exact S2|]. intros b. unfold holds. split.
        * intros [i [v [m [Q1 Q2]]]]. apply S4 in Q1. destruct (Nat.eqb i (home a) && Nat.eqb v w) eqn:EQ; [subst m; congruence|]. split; [eauto|].
          intros ->. destruct (ci_uniq _ _ _ _ _ _ HC _ _ _ _ _ _ _ Q1 A1 Q2 B1) as [-> ->]. rewrite !Nat.eqb_refl in EQ. discriminate.
        * intros [[i [v [m [Q1 Q2]]]] NB]. exists i, v, m. split; [|exact Q2]. apply S4. destruct (Nat.eqb i (home a) && Nat.eqb v w) eqn:EQ; [|exact Q1].
          apply andb_prop in EQ. destruct EQ as [X Y]. apply Nat.eqb_eq in X, Y. subst i v. pose proof (at_fun _ _ _ _ _ Q1 A1). subst m. congruence.
      + eexists _, _. split; [reflexivity|]. split; [exact HC|]. intros b. split; [|tauto]. intros Hb. split; [exact Hb|]. intros ->. destruct Hb as [i [v [m [Q1 Q2]]]]. exact (E2 i v m Q1 Q2).
    - eexists _, _. split; [reflexivity|]. destruct (clear_ok p W P d L S PO c HC) as [Q1 Q2]. split; [exact Q1|]. intros b i w l A1 B1. rewrite (Q2 i w l A1) in B1. discriminate.
  Qed.
  Lemma trun_CI : forall ops c, CI c -> Forall (top_ok W) ops -> exists c' rs, trun p c ops = Done (c', rs) /\ CI c'.
  Proof.
    induction ops as [|o ops IH]; intros c HC HF; cbn [trun]; [eauto|]. inversion HF as [|? ? H1 H2]. subst.
    destruct (tstep_ok c o HC H1) as [c1 [r [E [HC1 _]]]]. rewrite E. cbn [obind]. destruct (IH c1 HC1 H2) as [c2 [rs [E2 HC2]]]. rewrite E2. cbn [obind]. eauto.
  Qed.
End Steps2.

(** * With LRU the ways that hold nothing come first *)
Definition QI (W : nat) (ways : list line) (rep : list nat) : Prop :=
  length ways = W /\ exists u v, rep = u ++ v /\ Permutation rep (seq 0 W) /\
    (forall w, In w u -> exists l, nth_error ways w = Some l /\ ln_valid l = false) /\ (forall w, In w v -> exists l, nth_error ways w = Some l /\ ln_valid l = true).
Lemma unlink_app : forall w a b, unlink w (a ++ b) = unlink w a ++ unlink w b.
Proof. intros. apply filter_app. Qed.
Lemma unlink_in : forall w a x, In x (unlink w a) <-> In x a /\ x <> w.
Proof. intros w a x. unfold unlink. rewrite filter_In. destruct (Nat.eqb_spec x w); cbn; intuition; congruence. Qed.
Lemma QI_fill : forall W ways rep w l' rep', QI W ways rep -> (w < W)%nat -> ln_valid l' = true -> lru_touch_mru w rep = Some rep' -> QI W (put w l' ways) rep'.
Proof.
  intros W ways rep w l' rep' [HL [u [v [-> [HP [HU HV]]]]]] Hw Hl E. split; [rewrite put_len; exact HL|].
  destruct (po_mru _ _ _ (lru_pol_ok W ltac:(lia)) _ w HP Hw) as [r [E1 E2]]. cbn [lru_policy p_mru] in E1. assert (r = rep') by congruence. subst r.
  unfold lru_touch_mru in E. destruct (w <? length (u ++ v))%nat; [|discriminate]. injection E as <-.
  exists (unlink w u), (unlink w v ++ [w]). split; [rewrite unlink_app, app_assoc; reflexivity|]. split; [exact E2|]. split.
  - intros x Hx. apply unlink_in in Hx. destruct Hx as [H1 H2]. destruct (HU x H1) as [l [Q1 Q2]]. exists l. split; [|exact Q2].
    rewrite put_nth by lia. destruct (Nat.eqb_spec x w); [contradiction|exact Q1].
  - intros x Hx. rewrite put_nth by lia. destruct (Nat.eqb_spec x w) as [->|Nx]; [eauto|]. apply in_app_iff in Hx. destruct Hx as [Hx|[Hx|[]]]; [|congruence].
    apply unlink_in in Hx. apply HV. tauto.
Qed.
Lemma QI_low : forall W ways rep w l' rep', QI W ways rep -> (w < W)%nat -> ln_valid l' = false -> lru_touch_lru w rep = Some rep' -> QI W (put w l' ways) rep'.
Proof.
  intros W ways rep w l' rep' [HL [u [v [-> [HP [HU HV]]]]]] Hw Hl E. split; [rewrite put_len; exact HL|].
  destruct (po_low _ _ _ (lru_pol_ok W ltac:(lia)) _ w HP Hw) as [r [E1 E2]]. cbn [lru_policy p_low] in E1. assert (r = rep') by congruence. subst r.
  unfold lru_touch_lru in E. destruct (w <? length (u ++ v))%nat; [|discriminate]. injection E as <-.
  exists (w :: unlink w u), (unlink w v). split; [rewrite unlink_app; reflexivity|]. split; [exact E2|]. split.
  - intros x Hx. rewrite put_nth by lia. destruct (Nat.eqb_spec x w) as [->|Nx]; [eauto|]. destruct Hx as [Hx|Hx]; [congruence|]. apply unlink_in in Hx. apply HU. tauto.
  - intros x Hx. apply unlink_in in Hx. destruct Hx as [H1 H2]. destruct (HV x H1) as [l [Q1 Q2]]. exists l. split; [|exact Q2].
    rewrite put_nth by lia. destruct (Nat.eqb_spec x w); [contradiction|exact Q1].
Qed.
Lemma QI_keep : forall W ways rep w l l', QI W ways rep -> nth_error ways w = Some l -> ln_valid l' = ln_valid l -> QI W (put w l' ways) rep.
Proof.
  intros W ways rep w l l' [HL [u [v [E [HP [HU HV]]]]]] Hw Hl. assert (HB : (w < length ways)%nat) by (apply nth_error_Some; congruence). split; [rewrite put_len; exact HL|]. exists u, v.
  split; [exact E|]. split; [exact HP|]. split; intros x Hx; rewrite put_nth by exact HB; destruct (Nat.eqb_spec x w) as [->|Nx]; auto.
  - destruct (HU w Hx) as [l0 [Q1 Q2]]. exists l'. split; [reflexivity|congruence].
  - destruct (HV w Hx) as [l0 [Q1 Q2]]. exists l'. split; [reflexivity|congruence].
Qed.
Definition QC (W : nat) (c : cache (list nat)) : Prop := forall i st, nth_error (c_sets c) i = Some st -> QI W (cs_ways st) (cs_rep st).
Lemma put_same : forall (A : Type) (l : list A) i x, nth_error l i = Some x -> put i x l = l.
Proof. intros A. induction l as [|y l IH]; intros [|i] x H; cbn [put nth_error] in *; try discriminate; [congruence|]. f_equal. auto. Qed.
Lemma with_inv : forall R (c c1 : cache R) i w l, with_line c i w l = Done c1 -> exists st, nth_error (c_sets c) i = Some st /\
  c1 = mkCache (c_dec c) (put i (mkSet (put w l (cs_ways st)) (cs_rep st) (cs_nt st)) (c_sets c)).
Proof. intros R c c1 i w l H. unfold with_line, nth_set in H. destruct (nth_error (c_sets c) i) as [st|]; [|discriminate]. cbn [obind] in H. injection H as <-. eauto. Qed.
Lemma mru_inv : forall R (p : policy R) (c c1 : cache R) i w, touch_mru p c i w = Done c1 -> exists st r, nth_error (c_sets c) i = Some st /\ p_mru p w (cs_rep st) = Some r /\
  c1 = mkCache (c_dec c) (put i (mkSet (cs_ways st) r (cs_nt st)) (c_sets c)).
Proof.
  intros R p c c1 i w H. unfold touch_mru, nth_set in H. destruct (nth_error (c_sets c) i) as [st|]; [|discriminate]. cbn [obind] in H.
  destruct (p_mru p w (cs_rep st)) as [r|] eqn:E; [|discriminate]. cbn [need obind] in H. injection H as <-. eauto.
Qed.
Lemma low_inv : forall R (p : policy R) (c c1 : cache R) i w, touch_lru p c i w = Done c1 -> exists st r, nth_error (c_sets c) i = Some st /\ p_low p w (cs_rep st) = Some r /\
  c1 = mkCache (c_dec c) (put i (mkSet (cs_ways st) r (cs_nt st)) (c_sets c)).
Proof.
  intros R p c c1 i w H. unfold touch_lru, nth_set in H. destruct (nth_error (c_sets c) i) as [st|]; [|discriminate]. cbn [obind] in H.
  destruct (p_low p w (cs_rep st)) as [r|] eqn:E; [|discriminate]. cbn [need obind] in H. injection H as <-. eauto.
Qed.
Lemma QC_put : forall W c i st st', QC W c -> nth_error (c_sets c) i = Some st -> QI W (cs_ways st') (cs_rep st') -> QC W (mkCache (c_dec c) (put i st' (c_sets c))).
Proof.
  intros W c i st st' HQ Hi H j sj. cbn [c_sets]. rewrite put_nth by (apply nth_error_Some; congruence). destruct (Nat.eqb j i); [|apply HQ]. intros E. injection E as <-. exact H.
Qed.
Lemma at_lt : forall W (c : cache (list nat)) i w l, QC W c -> at_ c i w l -> (w < W)%nat.
Proof. intros W c i w l HQ [st [H1 H2]]. destruct (HQ i st H1) as [HL _]. rewrite <- HL. apply nth_error_Some. congruence. Qed.
Lemma QC_mru : forall W c c' i w l, QC W c -> at_ c i w l -> ln_valid l = true -> touch_mru (lru_policy W) c i w = Done c' -> QC W c'.
Proof.
  intros W c c' i w l HQ A1 HV E. pose proof (at_lt _ _ _ _ _ HQ A1) as Hw. destruct (mru_inv _ _ _ _ _ _ E) as [st [r [E1 [E2 ->]]]].
  eapply QC_put; [exact HQ|exact E1|]. cbn [cs_ways cs_rep]. destruct A1 as [st' [H1 H2]]. assert (st' = st) by congruence. subst st'.
  rewrite <- (put_same _ _ _ _ H2). apply (QI_fill W (cs_ways st) (cs_rep st) w l r (HQ _ _ E1) Hw HV E2).
Qed.
Lemma QC_keep : forall W c c' i w l l', QC W c -> at_ c i w l -> ln_valid l' = ln_valid l -> with_line c i w l' = Done c' -> QC W c'.
Proof.
  intros W c c' i w l l' HQ [st' [H1 H2]] HV E. destruct (with_inv _ _ _ _ _ _ E) as [st [E1 ->]]. assert (st' = st) by congruence. subst st'.
  eapply QC_put; [exact HQ|exact E1|]. cbn [cs_ways cs_rep]. eapply QI_keep; [apply (HQ _ _ E1)|exact H2|exact HV].
Qed.
(** Caches equal except for the non-temporal mark. *)
Definition nt_eq (c c' : cache (list nat)) : Prop := forall i st', nth_error (c_sets c') i = Some st' -> exists st, nth_error (c_sets c) i = Some st /\ cs_ways st = cs_ways st' /\ cs_rep st = cs_rep st'.
Lemma QC_fill : forall W c c1 c2 c' i w l0 l', QC W c -> at_ c i w l0 -> ln_valid l' = true -> with_line c i w l' = Done c1 -> nt_eq c1 c2 -> touch_mru (lru_policy W) c2 i w = Done c' -> QC W c'.
Proof.
  intros W c c1 c2 c' i w l0 l' HQ A1 HV E N E2. pose proof (at_lt _ _ _ _ _ HQ A1) as Hw. destruct (with_inv _ _ _ _ _ _ E) as [st [E1 ->]].
  destruct (mru_inv _ _ _ _ _ _ E2) as [st2 [r [F1 [F2 ->]]]]. assert (HB : (i < length (c_sets c))%nat) by (apply nth_error_Some; congruence).
  intros j sj Hj. cbn [c_sets] in Hj. rewrite put_nth in Hj by (apply nth_error_Some; congruence). destruct (Nat.eqb_spec j i) as [->|Nj].
  - injection Hj as <-. cbn [cs_ways cs_rep]. destruct (N _ _ F1) as [st1 [G1 [G2 G3]]]. cbn [c_sets] in G1. rewrite put_nth, Nat.eqb_refl in G1 by exact HB. injection G1 as <-.
    cbn [cs_ways cs_rep] in *. rewrite <- G2. rewrite <- G3 in F2. apply (QI_fill W (cs_ways st) (cs_rep st) w l' r (HQ _ _ E1) Hw HV F2).
  - destruct (N _ _ Hj) as [st1 [G1 [G2 G3]]]. cbn [c_sets] in G1. rewrite put_nth in G1 by exact HB. destruct (Nat.eqb_spec j i); [contradiction|].
    rewrite <- G2, <- G3. apply (HQ _ _ G1).
Qed.
Lemma QC_low : forall W c c1 c' i w l0 l', QC W c -> at_ c i w l0 -> ln_valid l' = false -> with_line c i w l' = Done c1 -> touch_lru (lru_policy W) c1 i w = Done c' -> QC W c'.
Proof.
  intros W c c1 c' i w l0 l' HQ A1 HV E E2. pose proof (at_lt _ _ _ _ _ HQ A1) as Hw. destruct (with_inv _ _ _ _ _ _ E) as [st [E1 ->]].
  destruct (low_inv _ _ _ _ _ _ E2) as [st2 [r [F1 [F2 ->]]]]. assert (HB : (i < length (c_sets c))%nat) by (apply nth_error_Some; congruence).
  cbn [c_sets c_dec] in *. rewrite put_nth, Nat.eqb_refl in F1 by exact HB. injection F1 as <-. cbn [cs_ways cs_rep cs_nt] in *.
  intros j sj Hj. cbn [c_sets] in Hj. rewrite put_nth in Hj by (rewrite put_len; exact HB). destruct (Nat.eqb_spec j i) as [->|Nj].
  - injection Hj as <-. cbn [cs_ways cs_rep]. apply (QI_low W (cs_ways st) (cs_rep st) w l' r (HQ _ _ E1) Hw HV F2).
  - rewrite put_nth in Hj by exact HB. destruct (Nat.eqb_spec j i); [contradiction|]. apply (HQ _ _ Hj).
Qed.
Lemma QC_clear : forall W c, QC W c -> QC W (cache_clear (lru_policy W) c).
Proof.
  intros W c HQ i st H. unfold cache_clear in H. cbn [c_sets] in H. rewrite nth_error_map in H. destruct (nth_error (c_sets c) i) as [s0|] eqn:E; [|discriminate]. injection H as <-.
  cbn [cs_ways cs_rep lru_policy p_reset]. destruct (HQ _ _ E) as [HL [u [v [E1 [HP [HU HV]]]]]]. split; [rewrite map_length; exact HL|]. exists (cs_rep s0), []. rewrite app_nil_r. split; [reflexivity|].
  split; [exact HP|]. split; [|intros w []]. intros w Hw. assert (In w (seq 0 W)) by (eapply Permutation_in; [exact HP|exact Hw]). apply in_seq in H. rewrite nth_error_map.
  destruct (nth_error (cs_ways s0) w) as [l|] eqn:EW; [|apply nth_error_None in EW; lia]. cbn. eauto.
Qed.
Lemma get_item_hit : forall R (c : cache R) a i w, get_item c a = Done (i, Some w) -> exists l, at_ c i w l /\ ln_valid l = true.
Proof.
  intros R c a i w H. unfold get_item in H. destruct (calc_tag (c_dec c) a) as [t|]; [|discriminate]. cbn [need obind] in H. destruct (set_of c a) as [j| | | |]; cbn [obind] in H; try discriminate.
  unfold nth_set in H. destruct (nth_error (c_sets c) j) as [st|] eqn:E; [|discriminate]. cbn [obind] in H. injection H as -> H. destruct (find_way_some _ _ _ H) as [l [Q1 [Q2 _]]].
  exists l. split; [exists st; auto|exact Q2].
Qed.
Lemma lru_item_at : forall R (p : policy R) (c : cache R) a i w l, lru_item p c a = Done (i, w, l) -> at_ c i w l /\ set_of c a = Done i /\ exists st, nth_error (c_sets c) i = Some st /\ p_lru p (cs_rep st) = Some w.
Proof.
  intros R p c a i w l H. unfold lru_item in H. destruct (set_of c a) as [j| | | |]; cbn [obind] in H; try discriminate. unfold nth_set in H.
  destruct (nth_error (c_sets c) j) as [st|] eqn:E; [|discriminate]. cbn [obind] in H. destruct (p_lru p (cs_rep st)) as [v|] eqn:EL; [|discriminate]. cbn [need obind] in H.
  unfold way_line in H. destruct (nth_error (cs_ways st) v) as [m|] eqn:EW; [|discriminate]. cbn [obind] in H. injection H as -> -> ->. split; [exists st; auto|]. eauto.
Qed.
Lemma victim_full : forall W c a i w l, QC W c -> lru_item (lru_policy W) c a = Done (i, w, l) -> ln_valid l = true ->
  exists st, nth_error (c_sets c) i = Some st /\ forall v m, nth_error (cs_ways st) v = Some m -> ln_valid m = true.
Proof.
  intros W c a i w l HQ E HV. destruct (lru_item_at _ _ _ _ _ _ _ E) as [[st' [A1 A2]] [_ [st [H1 H2]]]]. assert (st' = st) by congruence. subst st'. exists st. split; [exact H1|].
  destruct (HQ _ _ H1) as [HL [u [v [E1 [HP [HU HVV]]]]]]. cbn [lru_policy p_lru] in H2. unfold lru_victim in H2.
  destruct u as [|x u].
  - intros y m Hy. assert (In y v). { cbn [app] in E1. rewrite <- E1. eapply Permutation_in; [apply Permutation_sym; exact HP|]. apply in_seq. split; [lia|]. rewrite <- HL. apply nth_error_Some. congruence. }
    destruct (HVV y H) as [l0 [Q1 Q2]]. congruence.
  - rewrite E1 in H2. cbn in H2. injection H2 as ->. destruct (HU w (or_introl eq_refl)) as [l0 [Q1 Q2]]. congruence.
Qed.
Lemma nt_eq_refl : forall c, nt_eq c c. Proof. intros c i st H. eauto. Qed.
Lemma get_line_QC : forall W s a s' i w, QC W (s_cache s) -> get_line (lru_policy W) s a = Done (s', (i, w)) -> QC W (s_cache s').
Proof.
  intros W s a s' i w HQ H. unfold get_line in H. destruct (get_item (s_cache s) a) as [[j [v|]]| | | |] eqn:EG; cbn [obind] in H; try discriminate.
  - destruct (get_item_hit _ _ _ _ _ EG) as [l [A1 HV]]. destruct (touch_mru (lru_policy W) (s_cache s) j v) as [c'| | | |] eqn:ET; cbn [obind] in H; try discriminate. injection H as <- <- <-.
    cbn [s_cache]. exact (QC_mru _ _ _ _ _ _ HQ A1 HV ET).
  - unfold replace_line in H. destruct (lru_item (lru_policy W) (s_cache s) a) as [[[j' v] l]| | | |] eqn:EL; cbn [obind] in H; try discriminate.
    destruct (calc_tag (c_dec (s_cache s)) (calc_block_addr (c_dec (s_cache s)) a)) as [t|]; cbn [need obind] in H; [|discriminate].
    match goal with H : context [with_line ?c ?i ?w ?l] |- _ => destruct (with_line c i w l) as [c1| | | |] eqn:EW; cbn [obind s_cache] in H; try discriminate end.
    destruct (touch_mru (lru_policy W) c1 j' v) as [c'| | | |] eqn:ET; cbn [obind] in H; try discriminate. injection H as <- <- <-. cbn [s_cache].
    eapply QC_fill; [exact HQ|apply (proj1 (lru_item_at _ _ _ _ _ _ _ EL))| |exact EW|apply nt_eq_refl|exact ET]. reflexivity.
Qed.
Lemma line_at : forall R (c : cache R) i w st l, nth_set c i = Done st -> way_line st w = Done l -> at_ c i w l.
Proof.
  intros R c i w st l H1 H2. unfold nth_set in H1. unfold way_line in H2. exists st. destruct (nth_error (c_sets c) i); [|discriminate]. injection H1 as ->.
  destruct (nth_error (cs_ways st) w); [|discriminate]. injection H2 as ->. auto.
Qed.
Section LRUSteps.
  Context (W : nat) (d : decoder) (L S : N).
  Hypothesis WP : (0 < W)%nat.
  Hypothesis DO : dec_ok d L S.
  Notation P := (fun r => Permutation r (seq 0 W)).
  Notation CI := (CI W P d L S).
  Lemma sstep_QC : forall s o s' r, CI (s_cache s) -> op_addr o < 2 ^ 64 -> QC W (s_cache s) -> sstep (lru_policy W) s o = Done (s', r) -> QC W (s_cache s').
  Proof.
    intros s o s' r HC Ha HQ H. destruct o as [a n|a buf|a|a| |a|a|b|b]; cbn [op_addr sstep] in *.
    - unfold sc_read in H. destruct (get_line (lru_policy W) s a) as [[s1 [i w]]| | | |] eqn:EG; cbn [obind] in H; try discriminate. pose proof (get_line_QC _ _ _ _ _ _ HQ EG) as Q.
      destruct (nth_set (s_cache s1) i); cbn [obind] in H; try discriminate. destruct (way_line _ w); cbn [obind] in H; try discriminate. injection H as <- _. exact Q.
    - unfold sc_write in H. destruct (get_item (s_cache s) a) as [[j f]| | | |]; cbn [obind] in H; try discriminate. destruct (_ && _); [injection H as <- _; exact HQ|].
      destruct (get_line (lru_policy W) s a) as [[s1 [i w]]| | | |] eqn:EG; cbn [obind] in H; try discriminate. pose proof (get_line_QC _ _ _ _ _ _ HQ EG) as Q.
      destruct (nth_set (s_cache s1) i) as [st| | | |] eqn:EN; cbn [obind] in H; try discriminate. destruct (way_line st w) as [l| | | |] eqn:EL; cbn [obind] in H; try discriminate.
      destruct (line_write l _ buf); [|injection H as <- _; exact Q].
      match goal with H : context [with_line ?c ?i ?w ?l] |- _ => destruct (with_line c i w l) as [c1| | | |] eqn:EW; cbn [obind] in H; try discriminate end.
      injection H as <- _. cbn [s_cache]. eapply QC_keep; [exact Q|exact (line_at _ _ _ _ _ _ EN EL)| |exact EW]. reflexivity.
    - unfold sc_line in H. destruct (get_line (lru_policy W) s a) as [[s1 [i w]]| | | |] eqn:EG; cbn [obind] in H; try discriminate. pose proof (get_line_QC _ _ _ _ _ _ HQ EG) as Q.
      destruct (nth_set (s_cache s1) i); cbn [obind] in H; try discriminate. destruct (way_line _ w); cbn [obind] in H; try discriminate. injection H as <- _. exact Q.
    - unfold sc_invalidate in H. destruct (get_item_ok W P d L S DO _ a HC) as [f [E1 E2]]. rewrite E1 in H. cbn [obind] in H. destruct f as [w|]; [|injection H as <- _; exact HQ].
      destruct E2 as [l [A1 B1]]. destruct (at_line _ _ _ _ A1) as [st [N1 N2]]. rewrite N1 in H. cbn [obind] in H. rewrite N2 in H. cbn [obind] in H.
      destruct (line_ok_ W P d L S (s_cache s) (home L S a) w l (set_valid false l) HC A1) as [c1 [G1 [G2 [G3 G4]]]].
      { destruct (ci_line _ _ _ _ _ _ HC _ _ _ A1) as [Q _]. split; [exact Q|discriminate]. }
      { intros b i' w' m Q. discriminate. }
      rewrite G1 in H. cbn [obind] in H. assert (LA : (ln_addr l / L) = a / L). { unfold blk in B1. destruct (ln_valid l); congruence. }
      destruct (set_of_ok W P d L S DO c1 (ln_addr l) G2) as [st1 [K1 K2]]. rewrite K1 in H. cbn [obind] in H. rewrite LA in *. fold (home L S a) in *.
      destruct (touch_lru (lru_policy W) c1 (home L S a) w) as [c2| | | |] eqn:ET; cbn [obind] in H; try discriminate. injection H as <- _. cbn [s_cache].
      eapply QC_low; [exact HQ|exact A1| |exact G1|exact ET]. reflexivity.
    - injection H as <- _. cbn [s_cache]. apply QC_clear. exact HQ.
    - destruct (is_hit (s_cache s) a); cbn [obind] in H; try discriminate. injection H as <- _. exact HQ.
    - destruct (hit_castout (lru_policy W) (s_cache s) a); cbn [obind] in H; try discriminate. injection H as <- _. exact HQ.
    - injection H as <- _. exact HQ.
    - injection H as <- _. exact HQ.
  Qed.
  Definition no_low (o : top) : Prop := match o with TLow _ => False | _ => True end.
  Lemma tstep_QC : forall c o c' r, CI c -> QC W c -> no_low o -> tstep (lru_policy W) c o = Done (c', r) -> QC W c'.
  Proof.
    intros c o c' r HC HQ HN H. destruct o as [a k nt|a n|a buf|a|a|a|]; cbn [tstep no_low] in *; try contradiction.
    - destruct (get_item c a) as [[j [w|]]| | | |]; cbn [obind] in H; try discriminate; [injection H as <- _; exact HQ|].
      destruct (victim (lru_policy W) c a k) as [[i w]| | | |]; cbn [obind] in H; try discriminate.
      destruct (s2_alloc (lru_policy W) c i w a nt) as [c1| | | |] eqn:EA; cbn [obind] in H; try discriminate. injection H as <- _.
      unfold s2_alloc in EA. destruct (nth_set c i) as [st| | | |] eqn:EN; cbn [obind] in EA; try discriminate. destruct (way_line st w) as [l| | | |] eqn:EL; cbn [obind] in EA; try discriminate.
      destruct (calc_tag (c_dec c) a) as [t|]; cbn [need obind] in EA; [|discriminate].
      match goal with H : context [with_line ?c ?i ?w ?l] |- _ => destruct (with_line c i w l) as [c2| | | |] eqn:EW; cbn [obind] in H; try discriminate end.
      match type of EA with obind ?x _ = _ => destruct x as [c3| | | |] eqn:EX; cbn [obind] in EA; try discriminate end.
      eapply QC_fill; [exact HQ|exact (line_at _ _ _ _ _ _ EN EL)| |exact EW| |exact EA]; [reflexivity|].
      destruct nt as [[]|]; try (injection EX as <-; apply nt_eq_refl). destruct (set_of c2 a) as [j'| | | |]; cbn [obind] in EX; try discriminate.
      unfold nth_set in EX. destruct (nth_error (c_sets c2) j') as [sj|] eqn:ES; [|discriminate]. cbn [obind] in EX. injection EX as <-. intros y sy Hy. cbn [c_sets] in Hy.
      rewrite put_nth in Hy by (apply nth_error_Some; congruence). destruct (Nat.eqb_spec y j') as [->|]; [|eauto]. injection Hy as <-. cbn [cs_ways cs_rep]. eauto.
    - destruct (get_item c a) as [[j [w|]]| | | |] eqn:EG; cbn [obind] in H; try discriminate; [|injection H as <- _; exact HQ]. unfold s2_read in H.
      destruct (nth_set c j) as [st| | | |] eqn:EN; cbn [obind] in H; try discriminate. destruct (way_line st w) as [l| | | |] eqn:EL; cbn [obind] in H; try discriminate.
      destruct (line_read l _ n) as [dt|]; [|injection H as <- _; exact HQ]. destruct (touch_mru (lru_policy W) c j w) as [c1| | | |] eqn:ET; cbn [obind] in H; try discriminate. injection H as <- _.
      destruct (get_item_hit _ _ _ _ _ EG) as [l0 [A1 HV]]. exact (QC_mru _ _ _ _ _ _ HQ A1 HV ET).
    - destruct (get_item c a) as [[j [w|]]| | | |] eqn:EG; cbn [obind] in H; try discriminate; [|injection H as <- _; exact HQ]. unfold s2_write in H.
      destruct (get_item_hit _ _ _ _ _ EG) as [l0 [A1 HV]].
      destruct (nth_set c j) as [st| | | |] eqn:EN; cbn [obind] in H; try discriminate. destruct (way_line st w) as [l| | | |] eqn:EL; cbn [obind] in H; try discriminate.
      pose proof (at_fun _ _ _ _ _ A1 (line_at _ _ _ _ _ _ EN EL)). subst l0. destruct (line_write l _ buf) as [dt|]; [|injection H as <- _; exact HQ].
      match goal with H : context [with_line ?c ?i ?w ?l] |- _ => destruct (with_line c i w l) as [c2| | | |] eqn:EW; cbn [obind] in H; try discriminate end.
      destruct (touch_mru (lru_policy W) c2 j w) as [c1| | | |] eqn:ET; cbn [obind] in H; try discriminate. injection H as <- _.
      eapply QC_fill; [exact HQ|exact A1| |exact EW|apply nt_eq_refl|exact ET]. exact HV.
    - destruct (get_item c a) as [[j [w|]]| | | |] eqn:EG; cbn [obind] in H; try discriminate; [|injection H as <- _; exact HQ].
      destruct (touch_mru (lru_policy W) c j w) as [c1| | | |] eqn:ET; cbn [obind] in H; try discriminate. injection H as <- _.
      destruct (get_item_hit _ _ _ _ _ EG) as [l0 [A1 HV]]. exact (QC_mru _ _ _ _ _ _ HQ A1 HV ET).
    - destruct (get_item c a) as [[j [w|]]| | | |] eqn:EG; cbn [obind] in H; try discriminate; [|injection H as <- _; exact HQ].
      destruct (get_item_hit _ _ _ _ _ EG) as [l0 [A1 HV]]. destruct (s2_invalidate (lru_policy W) c j w) as [c1| | | |] eqn:EI; cbn [obind] in H; try discriminate. injection H as <- _.
      unfold s2_invalidate in EI. destruct (nth_set c j) as [st| | | |] eqn:EN; cbn [obind] in EI; try discriminate. destruct (way_line st w) as [l| | | |] eqn:EL; cbn [obind] in EI; try discriminate.
      destruct (calc_tag (c_dec c) 0) as [t|]; cbn [need obind] in EI; [|discriminate].
      match goal with H : context [with_line ?c ?i ?w ?l] |- _ => destruct (with_line c i w l) as [c2| | | |] eqn:EW; cbn [obind] in H; try discriminate end.
      eapply QC_low; [exact HQ|exact A1| |exact EW|exact EI]. reflexivity.
    - injection H as <- _. apply QC_clear. exact HQ.
  Qed.
End LRUSteps.
