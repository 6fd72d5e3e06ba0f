(** Caches: lookups and replacement (C46), and the data a client sees (C47). *)
From Coq Require Import List NArith Arith Bool Lia Permutation.
From Verif Require Import MathUtilsModel AddrDecodeModel AddrDecodeProps ReplacementModel LayoutModel StorageModel CacheModel CacheProofs CacheSteps CacheSteps2.
Import ListNotations.
Open Scope N_scope.

(** A cache of 8 sets of 2 ways of 16-byte lines. *)
Definition blank : line := mkLn false false 0 0 false (repeat 0 16).
Definition lru8 : cache (list nat) := match make_cache (lru_policy 2) 256 16 16 2 false blank with Some c => c | None => mkCache (Dec 0 0 0 0 0) [] end.
Definition ramp : N -> N := fun x => x mod 251.
Lemma geo8 : regular 256 16 16 (N.of_nat 2) false 4 3. Proof. repeat split; vm_compute; reflexivity. Qed.
Lemma lru8_made : make_cache (lru_policy 2) 256 16 16 2 false blank = Some lru8. Proof. vm_compute. reflexivity. Qed.

(** * C46 *)
(** The lines of a cache that a lookup could find. *)
Definition valid_in {R} (c : cache R) (i w : nat) (l : line) : Prop :=
  exists st, nth_error (c_sets c) i = Some st /\ nth_error (cs_ways st) w = Some l /\ ln_valid l = true.
(** No set has two valid lines with one tag, and an address hits exactly if some valid line starts at or below it and ends above it. *)
Definition exact_lookup {R} (L : N) (c : cache R) : Prop :=
  (forall i v w lv lw, valid_in c i v lv -> valid_in c i w lw -> ln_tag lv = ln_tag lw -> v = w) /\
  (forall a, a < 2 ^ 64 -> exists h, is_hit c a = Done h /\
     (h = true <-> exists i w l, valid_in c i w l /\ ln_addr l <= a /\ a < ln_addr l + L)).
Lemma exact_of_CI : forall R W P d L S (c : cache R), dec_ok d L S -> CI W P d L S c -> exact_lookup L c.
Proof.
  intros R W P d L S c DO HC. pose proof (do_L _ _ _ DO) as LP. split.
  - intros i v w lv lw [s1 [A1 [A2 A3]]] [s2 [B1 [B2 B3]]] E. assert (K1 : at_ c i v lv) by (exists s1; auto). assert (K2 : at_ c i w lw) by (exists s2; auto).
    destruct (ci_line _ _ _ _ _ _ HC _ _ _ K1) as [_ Q1]. destruct (Q1 A3) as [b1 [_ [C2 [C3 C4]]]].
    assert (L1 : blk L lv = Some b1) by (unfold blk; rewrite A3, C4, N.div_mul by lia; reflexivity).
    destruct (ci_uniq _ _ _ _ _ _ HC _ _ _ _ _ _ b1 K1 K2 L1) as [_ Q]; [|exact Q].
    apply (blk_tag d L S DO i lw b1 (ci_line _ _ _ _ _ _ HC _ _ _ K2)). split; [exact B3|]. split; [congruence|exact C2].
  - intros a Ha. destruct (is_hit_ok W P d L S DO c a HC) as [h [E1 E2]]. exists h. split; [exact E1|]. rewrite E2. split.
    + intros [i [w [l [K1 K2]]]]. exists i, w, l. assert (EV : ln_valid l = true) by (unfold blk in K2; destruct (ln_valid l); [reflexivity|discriminate]).
      split; [destruct K1 as [st [X Y]]; exists st; auto|]. destruct (ci_line _ _ _ _ _ _ HC _ _ _ K1) as [_ Q1]. destruct (Q1 EV) as [b1 [_ [_ [_ C4]]]].
      unfold blk in K2. rewrite EV, C4, N.div_mul in K2 by lia. injection K2 as ->. rewrite C4. apply (block_in d L S DO).
    + intros [i [w [l [[st [X [Y Z]]] [G1 G2]]]]]. exists i, w, l. assert (K1 : at_ c i w l) by (exists st; auto). split; [exact K1|].
      destruct (ci_line _ _ _ _ _ _ HC _ _ _ K1) as [_ Q1]. destruct (Q1 Z) as [b1 [_ [_ [_ C4]]]]. unfold blk. rewrite Z, C4, N.div_mul by lia. f_equal.
      rewrite C4 in *. symmetry. apply (in_block d L S DO); assumption.
Qed.

(** SimpleCache, any history of calls, any policy that honours its interface. *)
Theorem C46_simple_no_duplicates : forall R (p : policy R) W P sz L stride kb l s dflt c th al m ops,
  pol_ok p W P -> regular sz L stride (N.of_nat W) kb l s -> ln_valid dflt = false -> length (ln_data dflt) = N.to_nat L ->
  make_cache p sz L stride W kb dflt = Some c -> Forall (fun o => op_addr o < 2 ^ 64) ops ->
  exists s' rs, srun p (mkSimple c th al m) ops = Done (s', rs) /\ exact_lookup L (s_cache s').
Proof.
  intros R p W P sz L stride kb l s dflt c th al m ops PO HR HV HD HM HO. destruct (make_CI _ _ _ _ _ _ _ _ _ _ _ _ PO HR HV HD HM) as [d [DO [HC _]]].
  destruct (srun_CI p W P d L (2 ^ s) PO DO ops (mkSimple c th al m) HC HO) as [s' [rs [E HC']]]. exists s', rs. split; [exact E|]. eapply exact_of_CI; eauto.
Qed.
Example C46_simple_no_duplicates_ex : match srun (lru_policy 2) (mkSimple lru8 false true ramp) [SRead 0 4; SWrite 128 [7]; SCastout 256; SRead 256 2; SHit 0; SHit 128; SHit 271; SHit 272] with
  | Done (_, rs) => rs = [ABytes [0;1;2;3]; ADone; ACast false (Some (0, false)); ABytes [5;6]; AHit false; AHit true; AHit true; AHit false] | _ => False end.
Proof. vm_compute. reflexivity. Qed.
Print Assumptions C46_simple_no_duplicates.

(** SimpleCache2: clients that look an address up before they allocate a line for it. *)
Theorem C46_chosen_no_duplicates : forall R (p : policy R) W P sz L stride kb l s dflt c ops,
  pol_ok p W P -> regular sz L stride (N.of_nat W) kb l s -> ln_valid dflt = false -> length (ln_data dflt) = N.to_nat L ->
  make_cache p sz L stride W kb dflt = Some c -> Forall (top_ok W) ops ->
  exists c' rs, trun p c ops = Done (c', rs) /\ exact_lookup L c'.
Proof.
  intros R p W P sz L stride kb l s dflt c ops PO HR HV HD HM HO. destruct (make_CI _ _ _ _ _ _ _ _ _ _ _ _ PO HR HV HD HM) as [d [DO [HC _]]].
  destruct (trun_CI p W P d L (2 ^ s) PO DO ops c HC HO) as [c' [rs [E HC']]]. exists c', rs. split; [exact E|]. eapply exact_of_CI; eauto.
Qed.
Example C46_chosen_no_duplicates_ex : match trun (lru_policy 2) lru8 [TFill 0 ByLRU None; TFill 128 ByInvalid (Some true); TWrite 130 [9]; TRead 128 4; TFill 256 (ByNT true) (Some false); TRead 3 1; TRead 257 1] with
  | Done (_, rs) => rs = [ADone; ADone; ADone; ABytes [0;0;9;0]; ADone; AHit false; ABytes [0]] | _ => False end.
Proof. vm_compute. reflexivity. Qed.
Print Assumptions C46_chosen_no_duplicates.

(** What each call does to the set of addresses that hit, and that isHitWithCastout announces what the next call would throw out. *)
Definition hits {R} (c : cache R) (a : N) : Prop := is_hit c a = Done true.
Theorem C46_simple_hits : forall R (p : policy R) W P sz L stride kb l s dflt c th al m ops s1 rs o s2 r,
  pol_ok p W P -> regular sz L stride (N.of_nat W) kb l s -> ln_valid dflt = false -> length (ln_data dflt) = N.to_nat L ->
  make_cache p sz L stride W kb dflt = Some c -> Forall (fun o => op_addr o < 2 ^ 64) ops -> op_addr o < 2 ^ 64 ->
  srun p (mkSimple c th al m) ops = Done (s1, rs) -> sstep p s1 o = Done (s2, r) ->
  let a := op_addr o in
  let brings_in := exists h v, hit_castout p (s_cache s1) a = Done (ACast h v) /\ (h = true <-> hits (s_cache s1) a) /\ (h = true -> v = None) /\
    (forall va dirty, v = Some (va, dirty) -> hits (s_cache s1) va /\ ~ same_block L va a) /\
    forall a', a' < 2 ^ 64 -> (hits (s_cache s2) a' <-> same_block L a a' \/ hits (s_cache s1) a' /\ (forall va dirty, v = Some (va, dirty) -> ~ same_block L va a')) in
  let keeps := forall a', a' < 2 ^ 64 -> (hits (s_cache s2) a' <-> hits (s_cache s1) a') in
  match o with
  | SRead _ _ | SLine _ => brings_in
  | SWrite _ _ => if s_alloc s1 then brings_in else keeps
  | SInvalidate _ => (r = ADone <-> hits (s_cache s1) a) /\ forall a', a' < 2 ^ 64 -> (hits (s_cache s2) a' <-> hits (s_cache s1) a' /\ ~ same_block L a a')
  | SClear => forall a', a' < 2 ^ 64 -> ~ hits (s_cache s2) a'
  | SHit _ | SCastout _ | SThrough _ | SAlloc _ => keeps
  end.
Proof.
  intros R p W P sz L stride kb l s dflt c th al m ops s1 rs o s2 r PO HR HV HD HM HO Ha E1 E2 a brings_in keeps.
  destruct (make_CI _ _ _ _ _ _ _ _ _ _ _ _ PO HR HV HD HM) as [d [DO [HC0 _]]]. pose proof (do_L _ _ _ DO) as LP.
  destruct (srun_CI p W P d L (2 ^ s) PO DO ops (mkSimple c th al m) HC0 HO) as [s1' [rs' [E HC]]]. rewrite E1 in E. injection E as <- <-. clear HC0 E1 HO HM HV HD.
  assert (HH : forall c a, CI W P d L (2 ^ s) c -> (hits c a <-> holds L c (a / L))).
  { intros c0 a0 HC0. destruct (is_hit_ok W P d L (2 ^ s) DO c0 a0 HC0) as [h [X1 X2]]. unfold hits. rewrite X1, <- X2. split; [congruence|intros ->; reflexivity]. }
  assert (SB : forall x y, same_block L x y <-> x / L = y / L) by reflexivity.
  assert (BR : forall s' i w, get_line p s1 a = Done (s', (i, w)) -> (forall b, holds L (s_cache s2) b <-> holds L (s_cache s') b) -> CI W P d L (2 ^ s) (s_cache s2) -> brings_in).
  { intros s' i w EG EH HC2. subst brings_in. destruct (get_line_ok p W P d L (2 ^ s) PO DO s1 a HC Ha) as [s1' [w1 [l1 [G1 [HC1 [A1 [B1 [_ [_ K]]]]]]]]].
    rewrite EG in G1. injection G1 as <- -> <-. destruct K as [[K1 [K2 K3]]|[K1 [l0 [K2 [K3 [K4 [K5 K6]]]]]]].
    - assert (HA : holds L (s_cache s1) (a / L)) by (exists (home L (2 ^ s) a), w, l1; auto).
      assert (CA : hit_castout p (s_cache s1) a = Done (ACast true None)).
      { unfold hit_castout. destruct (get_item_ok W P d L (2 ^ s) DO (s_cache s1) a HC) as [f [F1 F2]]. rewrite F1. cbn [obind]. destruct f; [reflexivity|].
        exfalso. destruct HA as [i' [w' [l' [X Y]]]]. exact (F2 _ _ _ X Y). }
      exists true, None. split; [exact CA|]. split; [split; [intros _; apply HH; assumption|reflexivity]|]. split; [reflexivity|]. split; [discriminate|].
      intros a' Ha'. rewrite (HH _ a' HC2), (HH _ a' HC), EH. assert (EQ : holds L (s_cache s') (a' / L) <-> holds L (s_cache s1) (a' / L)).
      { unfold holds. split; intros [i' [w' [l' [X Y]]]]; exists i', w', l'; (split; [apply K3; exact X|exact Y]). }
      rewrite EQ. split; [intros X; right; split; [exact X|discriminate]|]. intros [X|[X _]]; [|exact X]. apply SB in X. rewrite <- X. exact HA.
    - assert (NH : ~ hits (s_cache s1) a). { rewrite (HH _ a HC). intros [i' [w' [l' [X Y]]]]. exact (K1 _ _ _ X Y). }
      assert (CA : hit_castout p (s_cache s1) a = Done (ACast false (if ln_valid l0 then Some (ln_addr l0, ln_mod l0) else None))).
      { unfold hit_castout. destruct (get_item_ok W P d L (2 ^ s) DO (s_cache s1) a HC) as [f [F1 F2]]. rewrite F1. cbn [obind]. destruct f as [v|].
        - exfalso. destruct F2 as [l' [X Y]]. exact (K1 _ _ _ X Y).
        - rewrite K2. reflexivity. }
      exists false, (if ln_valid l0 then Some (ln_addr l0, ln_mod l0) else None). split; [exact CA|]. split; [split; [discriminate|intros X; contradiction]|]. split; [discriminate|].
      assert (BV : forall va dirty, (if ln_valid l0 then Some (ln_addr l0, ln_mod l0) else None) = Some (va, dirty) -> blk L l0 = Some (va / L)).
      { intros va dirty X. unfold blk. destruct (ln_valid l0); [|discriminate]. injection X as <- _. reflexivity. }
      split.
      { intros va dirty X. apply BV in X. split; [apply HH; [exact HC|]; red; eauto|]. rewrite SB. intros Y. apply (K1 _ _ _ K3). congruence. }
      intros a' Ha'. rewrite (HH _ a' HC2), (HH _ a' HC), EH. split.
      + intros [i' [w' [l' [X Y]]]]. apply K6 in X. destruct (Nat.eqb i' (home L (2 ^ s) a) && Nat.eqb w' w) eqn:EQ.
        * subst l'. left. apply SB. congruence.
        * right. split; [red; eauto|]. intros va dirty Z. apply BV in Z. rewrite SB. intros Q. rewrite Q in Z.
          destruct (ci_uniq _ _ _ _ _ _ HC _ _ _ _ _ _ _ X K3 Y Z) as [-> ->]. rewrite !Nat.eqb_refl in EQ. discriminate.
      + intros [X|[[i' [w' [l' [X Y]]]] Z]].
        * apply SB in X. exists (home L (2 ^ s) a), w, l1. split; [exact A1|congruence].
        * exists i', w', l'. split; [|exact Y]. apply K6. destruct (Nat.eqb i' (home L (2 ^ s) a) && Nat.eqb w' w) eqn:EQ; [|exact X].
          apply andb_prop in EQ. destruct EQ as [U V]. apply Nat.eqb_eq in U, V. subst i' w'. pose proof (at_fun _ _ _ _ _ X K3). subst l'. exfalso.
          unfold blk in Y. destruct (ln_valid l0) eqn:EV; [|discriminate]. apply (Z _ _ eq_refl). apply SB. injection Y as Y. exact Y. }
  destruct (sstep_CI p W P d L (2 ^ s) PO DO s1 o HC Ha) as [s2' [r' [E HC2]]]. rewrite E2 in E. injection E as <- <-.
  destruct o as [a0 n|a0 buf|a0|a0| |a0|a0|b|b]; cbn [sstep op_addr] in *; subst a.
  - unfold sc_read in E2. destruct (get_line p s1 a0) as [[s' [i w]]| | | |] eqn:EG; cbn [obind] in E2; try discriminate.
    destruct (nth_set (s_cache s') i); cbn [obind] in E2; try discriminate. destruct (way_line _ w); cbn [obind] in E2; try discriminate. injection E2 as -> _.
    apply (BR _ _ _ eq_refl); [reflexivity|exact HC2].
  - destruct (write_ok p W P d L (2 ^ s) PO DO s1 a0 buf HC Ha) as [[K1 [K2 K3]]|[K1 [s' [w [l1 [K2 [K3 [K4 K5]]]]]]]].
    + rewrite K3 in E2. injection E2 as <- _. rewrite K2. subst keeps. reflexivity.
    + assert (EH : forall b, holds L (s_cache s2) b <-> holds L (s_cache s') b).
      { intros b. destruct (line_write l1 (a0 mod L) buf) as [dt|] eqn:EW.
        - destruct K5 as [c' [X1 [X2 X3]]]. rewrite X1 in E2. injection E2 as <- _. cbn [s_cache]. unfold holds. split; intros [i' [w' [l' [X Y]]]].
          + apply X3 in X. destruct (Nat.eqb i' _ && Nat.eqb w' w); [|eauto]. subst l'. exists (home L (2 ^ s) a0), w, l1. split; [exact K3|exact Y].
          + destruct (Nat.eqb i' (home L (2 ^ s) a0) && Nat.eqb w' w) eqn:EQ.
            * apply andb_prop in EQ. destruct EQ as [U V]. apply Nat.eqb_eq in U, V. subst i' w'. pose proof (at_fun _ _ _ _ _ X K3). subst l'.
              eexists _, _, _. split; [apply X3; rewrite !Nat.eqb_refl; reflexivity|exact Y].
            * exists i', w', l'. split; [|exact Y]. apply X3. rewrite EQ. exact X.
        - rewrite K5 in E2. injection E2 as <- _. reflexivity. }
      pose proof (BR _ _ _ K2 EH HC2) as B. destruct (s_alloc s1) eqn:EA; [exact B|]. destruct K1 as [K1|K1]; [|discriminate].
      destruct B as [h [v [B1 [B2 [B3 [_ B4]]]]]]. assert (HT : hits (s_cache s1) a0) by (apply HH; assumption). rewrite (B3 (proj2 B2 HT)) in B4.
      intros a' Ha'. rewrite (B4 a' Ha'). split; [|intros X; right; split; [exact X|discriminate]]. intros [X|[X _]]; [|exact X].
      apply (HH _ _ HC). apply (HH _ _ HC) in HT. apply SB in X. rewrite <- X. exact HT.
  - unfold sc_line in E2. destruct (get_line p s1 a0) as [[s' [i w]]| | | |] eqn:EG; cbn [obind] in E2; try discriminate.
    destruct (nth_set (s_cache s') i); cbn [obind] in E2; try discriminate. destruct (way_line _ w); cbn [obind] in E2; try discriminate. injection E2 as -> _.
    apply (BR _ _ _ eq_refl); [reflexivity|exact HC2].
  - destruct (sc_invalidate_ok p W P d L (2 ^ s) PO DO s1 a0 HC Ha) as [[K1 K2]|[i [w [l1 [s' [K1 [K2 [K3 [_ [_ [_ [_ K4]]]]]]]]]]]].
    + rewrite K2 in E2. injection E2 as <- <-. assert (NH : ~ hits (s_cache s1) a0). { rewrite (HH _ a0 HC). intros [i' [w' [l' [X Y]]]]. exact (K1 _ _ _ X Y). }
      split; [split; [discriminate|intros X; contradiction]|]. intros a' Ha'. split; [|tauto]. intros X. split; [exact X|]. intros Y. apply SB in Y. apply NH. apply (HH _ _ HC). rewrite Y. apply (HH _ _ HC). exact X.
    + rewrite K3 in E2. injection E2 as <- <-. split.
      { split; [|reflexivity]. intros _. apply (HH _ _ HC). red. eauto. }
      intros a' Ha'. rewrite (HH _ a' HC2), (HH _ a' HC). split.
      * intros [i' [w' [l' [X Y]]]]. apply K4 in X. destruct (Nat.eqb i' i && Nat.eqb w' w) eqn:EQ; [subst l'; discriminate|]. split; [red; eauto|].
        intros Q. apply SB in Q. rewrite Q in K2. destruct (ci_uniq _ _ _ _ _ _ HC _ _ _ _ _ _ _ X K1 Y K2) as [-> ->]. rewrite !Nat.eqb_refl in EQ. discriminate.
      * intros [[i' [w' [l' [X Y]]]] NB]. exists i', w', l'. split; [|exact Y]. apply K4. destruct (Nat.eqb i' i && Nat.eqb w' w) eqn:EQ; [|exact X].
        apply andb_prop in EQ. destruct EQ as [U V]. apply Nat.eqb_eq in U, V. subst i' w'. pose proof (at_fun _ _ _ _ _ X K1). subst l'. exfalso. apply NB. apply SB. congruence.
  - injection E2 as <- _. cbn [s_cache] in *. intros a' Ha' X. apply (HH _ _ HC2) in X. destruct X as [i [w [l1 [X Y]]]].
    destruct (clear_ok p W P d L (2 ^ s) PO (s_cache s1) HC) as [_ Q]. rewrite (Q _ _ _ X) in Y. discriminate.
  - destruct (is_hit (s_cache s1) a0); cbn [obind] in E2; try discriminate. injection E2 as <- _. subst keeps. reflexivity.
  - destruct (hit_castout p (s_cache s1) a0); cbn [obind] in E2; try discriminate. injection E2 as <- _. subst keeps. reflexivity.
  - injection E2 as <- _. subst keeps. reflexivity.
  - injection E2 as <- _. subst keeps. reflexivity.
Qed.
Example C46_simple_hits_ex : match srun (lru_policy 2) (mkSimple lru8 false true ramp) [SRead 0 4; SWrite 128 [7]; SCastout 256] with
  | Done (s1, rs) => nth_error rs 2 = Some (ACast false (Some (0, false))) /\
      match sstep (lru_policy 2) s1 (SLine 256) with Done (s2, _) => is_hit (s_cache s2) 3 = Done false /\ is_hit (s_cache s2) 130 = Done true /\ is_hit (s_cache s2) 270 = Done true | _ => False end
  | _ => False end.
Proof. vm_compute. auto. Qed.
Print Assumptions C46_simple_hits.

(** With LRU a valid line is thrown out only from a set all of whose ways are valid: SimpleCache. *)
Theorem C46_simple_fills_first : forall W sz L stride kb l s dflt c th al m ops s1 rs a h va dirty,
  (0 < W)%nat -> regular sz L stride (N.of_nat W) kb l s -> ln_valid dflt = false -> length (ln_data dflt) = N.to_nat L ->
  make_cache (lru_policy W) sz L stride W kb dflt = Some c -> Forall (fun o => op_addr o < 2 ^ 64) ops ->
  srun (lru_policy W) (mkSimple c th al m) ops = Done (s1, rs) -> hit_castout (lru_policy W) (s_cache s1) a = Done (ACast h (Some (va, dirty))) ->
  exists i st, set_of (s_cache s1) a = Done i /\ nth_error (c_sets (s_cache s1)) i = Some st /\ forall w x, nth_error (cs_ways st) w = Some x -> ln_valid x = true.
Proof.
  intros W sz L stride kb l s dflt c th al m ops s1 rs a h va dirty WP HR HV HD HM HO ER EC.
  destruct (make_CI _ _ _ _ _ _ _ _ _ _ _ _ (lru_pol_ok W WP) HR HV HD HM) as [d [DO [HC HA]]].
  assert (HQ : QC W c).
  { intros i st Hi. destruct (ci_set _ _ _ _ _ _ HC i st Hi) as [SL SP]. split; [exact SL|]. exists (cs_rep st), []. rewrite app_nil_r. split; [reflexivity|]. split; [exact SP|]. split; [|intros w []].
    intros w Hw. assert (In w (seq 0 W)) by (eapply Permutation_in; [exact SP|exact Hw]). apply in_seq in H. destruct (nth_error (cs_ways st) w) as [x|] eqn:EX; [|apply nth_error_None in EX; lia].
    exists x. split; [reflexivity|]. assert (at_ c i w x) by (exists st; auto). rewrite (HA _ _ _ H0). exact HV. }
  assert (RUN : forall ops s0 s1 rs, CI W (fun r => Permutation r (seq 0 W)) d L (2 ^ s) (s_cache s0) -> QC W (s_cache s0) -> Forall (fun o => op_addr o < 2 ^ 64) ops ->
    srun (lru_policy W) s0 ops = Done (s1, rs) -> QC W (s_cache s1)).
  { clear - WP DO. induction ops as [|o ops IH]; intros s0 s1 rs HC HQ HO ER; cbn [srun] in ER; [injection ER as <- _; exact HQ|].
    inversion HO as [|? ? H1 H2]. subst. destruct (sstep_CI (lru_policy W) W _ d L (2 ^ s) (lru_pol_ok W WP) DO s0 o HC H1) as [s' [r [E HC']]]. rewrite E in ER. cbn [obind] in ER.
    destruct (srun (lru_policy W) s' ops) as [[s2 rs2]| | | |] eqn:E2; cbn [obind] in ER; try discriminate. injection ER as <- _.
    eapply IH; [exact HC'| |exact H2|exact E2]. exact (sstep_QC W d L (2 ^ s) DO s0 o s' r HC H1 HQ E). }
  pose proof (RUN ops (mkSimple c th al m) s1 rs HC HQ HO ER) as Q. unfold hit_castout in EC. destruct (get_item (s_cache s1) a) as [[i [w|]]| | | |]; cbn [obind] in EC; try discriminate.
  destruct (lru_item (lru_policy W) (s_cache s1) a) as [[[j v] x]| | | |] eqn:EL; cbn [obind] in EC; try discriminate. destruct (ln_valid x) eqn:EV; [|discriminate].
  destruct (victim_full W _ _ _ _ _ Q EL EV) as [st [Q1 Q2]]. exists j, st. destruct (lru_item_at _ _ _ _ _ _ _ EL) as [_ [X _]]. auto.
Qed.
Example C46_simple_fills_first_ex : match srun (lru_policy 2) (mkSimple lru8 false true ramp) [SRead 0 4; SCastout 128; SRead 128 1; SCastout 256; SInvalidate 128; SCastout 256; SRead 256 1; SCastout 128] with
  | Done (_, rs) => [nth 1 rs ADone; nth 3 rs ADone; nth 5 rs ADone; nth 7 rs ADone] = [ACast false None; ACast false (Some (0, false)); ACast false None; ACast false (Some (0, false))] | _ => False end.
Proof. vm_compute. reflexivity. Qed.
Print Assumptions C46_simple_fills_first.

(** The same for SimpleCache2 with LRU as long as touchLRU is not called on a valid line; with the check for invalid ways it
    holds for every policy and every state. *)
Theorem C46_chosen_fills_first : forall W sz L stride kb l s dflt c ops c1 rs a i w,
  (0 < W)%nat -> regular sz L stride (N.of_nat W) kb l s -> ln_valid dflt = false -> length (ln_data dflt) = N.to_nat L ->
  make_cache (lru_policy W) sz L stride W kb dflt = Some c -> Forall (top_ok W) ops -> Forall no_low ops ->
  trun (lru_policy W) c ops = Done (c1, rs) -> victim (lru_policy W) c1 a ByLRU = Done (i, w) ->
  exists st x, set_of c1 a = Done i /\ nth_error (c_sets c1) i = Some st /\ nth_error (cs_ways st) w = Some x /\
    (ln_valid x = true -> forall w' x', nth_error (cs_ways st) w' = Some x' -> ln_valid x' = true).
Proof.
  intros W sz L stride kb l s dflt c ops c1 rs a i w WP HR HV HD HM HO HN ER EC.
  destruct (make_CI _ _ _ _ _ _ _ _ _ _ _ _ (lru_pol_ok W WP) HR HV HD HM) as [d [DO [HC HA]]].
  assert (HQ : QC W c).
  { intros j st Hj. destruct (ci_set _ _ _ _ _ _ HC j st Hj) as [SL SP]. split; [exact SL|]. exists (cs_rep st), []. rewrite app_nil_r. split; [reflexivity|]. split; [exact SP|]. split; [|intros v []].
    intros v Hw. assert (In v (seq 0 W)) by (eapply Permutation_in; [exact SP|exact Hw]). apply in_seq in H. destruct (nth_error (cs_ways st) v) as [x|] eqn:EX; [|apply nth_error_None in EX; lia].
    exists x. split; [reflexivity|]. assert (at_ c j v x) by (exists st; auto). rewrite (HA _ _ _ H0). exact HV. }
  assert (RUN : forall ops c c1 rs, CI W (fun r => Permutation r (seq 0 W)) d L (2 ^ s) c -> QC W c -> Forall (top_ok W) ops -> Forall no_low ops ->
    trun (lru_policy W) c ops = Done (c1, rs) -> QC W c1).
  { clear - WP DO. induction ops as [|o ops IH]; intros c c1 rs HC HQ HO HN ER; cbn [trun] in ER; [injection ER as <- _; exact HQ|].
    inversion HO as [|? ? H1 H2]. inversion HN as [|? ? N1 N2]. subst. destruct (tstep_ok (lru_policy W) W _ d L (2 ^ s) (lru_pol_ok W WP) DO c o HC H1) as [c' [r [E [HC' _]]]]. rewrite E in ER. cbn [obind] in ER.
    destruct (trun (lru_policy W) c' ops) as [[c2 rs2]| | | |] eqn:E2; cbn [obind] in ER; try discriminate. injection ER as <- _.
    eapply IH; [exact HC'| |exact H2|exact N2|exact E2]. exact (tstep_QC W d L (2 ^ s) c o c' r HC HQ N1 E). }
  pose proof (RUN ops c c1 rs HC HQ HO HN ER) as Q. assert (EL : exists x, lru_item (lru_policy W) c1 a = Done (i, w, x)).
  { unfold victim in EC. unfold lru_item. destruct (set_of c1 a) as [j| | | |]; cbn [obind] in *; try discriminate. destruct (nth_set c1 j) as [st| | | |]; cbn [obind] in *; try discriminate.
    destruct (need (p_lru (lru_policy W) (cs_rep st))) as [v| | | |]; cbn [obind] in *; try discriminate. destruct (way_line st v) as [x| | | |]; cbn [obind] in *; try discriminate.
    injection EC as -> ->. eauto. }
  destruct EL as [x EL]. destruct (lru_item_at _ _ _ _ _ _ _ EL) as [[st [X1 X2]] [X3 _]]. exists st, x. split; [exact X3|]. split; [exact X1|]. split; [exact X2|].
  intros EV w' x' Hx. destruct (victim_full W _ _ _ _ _ Q EL EV) as [st' [Q1 Q2]]. assert (st' = st) by congruence. subst st'. eauto.
Qed.
Example C46_chosen_fills_first_ex : match trun (lru_policy 2) lru8 [TFill 0 ByLRU None; TFill 128 ByLRU None; TDrop 0] with
  | Done (c1, _) => victim (lru_policy 2) c1 256 ByLRU = Done (0%nat, 0%nat) | _ => False end.
Proof. vm_compute. reflexivity. Qed.
Print Assumptions C46_chosen_fills_first.

Theorem C46_invalid_check : forall R (p : policy R) c a i w, victim p c a ByInvalid = Done (i, w) ->
  exists st x, set_of c a = Done i /\ nth_error (c_sets c) i = Some st /\ nth_error (cs_ways st) w = Some x /\
    (ln_valid x = true -> forall w' x', nth_error (cs_ways st) w' = Some x' -> ln_valid x' = true).
Proof.
  intros R p c a i w H. unfold victim in H. destruct (set_of c a) as [j| | | |]; cbn [obind] in *; try discriminate. destruct (nth_set c j) as [st| | | |] eqn:EN; cbn [obind] in *; try discriminate.
  assert (N1 : nth_error (c_sets c) j = Some st) by (unfold nth_set in EN; destruct (nth_error (c_sets c) j); congruence).
  assert (FI : forall ws, match nth_error ws (find_invalid ws) with Some x => ln_valid x = false | None => forall w' x', nth_error ws w' = Some x' -> ln_valid x' = true end).
  { induction ws as [|y ws IH]; cbn [find_invalid]; [intros [|w']; discriminate|]. destruct (ln_valid y) eqn:EY; cbn [negb nth_error]; [|exact EY].
    destruct (nth_error ws (find_invalid ws)); [exact IH|]. intros [|w'] x' Hx; cbn [nth_error] in Hx; [congruence|eauto]. }
  specialize (FI (cs_ways st)). cbn zeta in H. destruct (Nat.ltb_spec (find_invalid (cs_ways st)) (length (cs_ways st))) as [HL|HL].
  - injection H as <- <-. destruct (nth_error (cs_ways st) (find_invalid (cs_ways st))) as [x|] eqn:EX; [|apply nth_error_None in EX; lia].
    exists st, x. split; [reflexivity|]. split; [exact N1|]. split; [exact EX|]. congruence.
  - rewrite (proj2 (nth_error_None _ _) HL) in FI. destruct (p_lru p (cs_rep st)) as [v|]; [|discriminate]. cbn [need obind] in H.
    destruct (way_line st v) as [x| | | |] eqn:EX; cbn [obind] in H; try discriminate. injection H as <- <-. exists st, x. split; [reflexivity|]. split; [exact N1|].
    split; [unfold way_line in EX; destruct (nth_error (cs_ways st) v); congruence|]. intros _. exact FI.
Qed.
Example C46_invalid_check_ex : match trun (plru_policy 1) (match make_cache (plru_policy 1) 256 16 16 2 false blank with Some c => c | None => mkCache (Dec 0 0 0 0 0) [] end) [TFill 0 ByLRU None; TLow 0] with
  | Done (c1, _) => victim (plru_policy 1) c1 128 ByInvalid = Done (0%nat, 1%nat) /\ victim (plru_policy 1) c1 128 ByLRU = Done (0%nat, 0%nat) | _ => False end.
Proof. vm_compute. auto. Qed.
Print Assumptions C46_invalid_check.

(** Without the check, Tree-PLRU throws a valid line out of a set that has a free way: three of four ways filled, then a hit in the
    half of the tree with the free way. *)
Definition plru4 : cache bits := match make_cache (plru_policy 2) 512 16 16 4 false blank with Some c => c | None => mkCache (Dec 0 0 0 0 0) [] end.
Theorem C46_plru_fills_first_refuted : exists ops s1 rs st x y, srun (plru_policy 2) (mkSimple plru4 false true ramp) ops = Done (s1, rs) /\
  hit_castout (plru_policy 2) (s_cache s1) 1024 = Done (ACast false (Some (x, y))) /\ set_of (s_cache s1) 1024 = Done 0%nat /\
  nth_error (c_sets (s_cache s1)) 0 = Some st /\ exists w l, nth_error (cs_ways st) w = Some l /\ ln_valid l = false.
Proof.
  exists [SRead 0 1; SRead 128 1; SRead 256 1; SRead 128 1]. eexists _, _, _, _, _. split; [vm_compute; reflexivity|]. split; [vm_compute; reflexivity|].
  split; [vm_compute; reflexivity|]. split; [vm_compute; reflexivity|]. exists 3%nat. eexists. split; vm_compute; reflexivity.
Qed.
Print Assumptions C46_plru_fills_first_refuted.
(** touchLRU on a valid line makes LRU throw it out although the set has a free way. *)
Theorem C46_touch_lru_refuted : exists ops c1 rs st x, trun (lru_policy 2) lru8 ops = Done (c1, rs) /\ victim (lru_policy 2) c1 128 ByLRU = Done (0%nat, 0%nat) /\
  nth_error (c_sets c1) 0 = Some st /\ nth_error (cs_ways st) 0 = Some x /\ ln_valid x = true /\ exists y, nth_error (cs_ways st) 1 = Some y /\ ln_valid y = false.
Proof.
  exists [TFill 0 ByLRU None; TLow 0]. eexists _, _, _, _. split; [vm_compute; reflexivity|]. split; [vm_compute; reflexivity|]. split; [vm_compute; reflexivity|].
  split; [vm_compute; reflexivity|]. split; [reflexivity|]. eexists. split; vm_compute; reflexivity.
Qed.
Print Assumptions C46_touch_lru_refuted.
(** allocateWithMRUUpdate itself does not look the address up: two valid lines get one tag. *)
Theorem C46_blind_allocation_refuted : exists c1 c2, s2_alloc (lru_policy 2) lru8 0 0 5 None = Done c1 /\ s2_alloc (lru_policy 2) c1 0 1 5 None = Done c2 /\
  exists l0 l1, valid_in c2 0 0 l0 /\ valid_in c2 0 1 l1 /\ ln_tag l0 = ln_tag l1.
Proof.
  eexists _, _. split; [vm_compute; reflexivity|]. split; [vm_compute; reflexivity|]. eexists _, _.
  split; [eexists; split; [vm_compute; reflexivity|split; vm_compute; reflexivity]|]. split; [eexists; split; [vm_compute; reflexivity|split; vm_compute; reflexivity]|]. vm_compute. reflexivity.
Qed.
Print Assumptions C46_blind_allocation_refuted.
(** Non-temporal fills: once both reserved ways hold non-temporal lines, the one filled last is the one replaced. *)
Theorem C46_nontemporal_refuted : exists c1 rs, trun (lru_policy 2) lru8 [TFill 0 (ByNT true) (Some true); TFill 128 (ByNT true) (Some true)] = Done (c1, rs) /\
  victim (lru_policy 2) c1 256 (ByNT true) = Done (0%nat, 1%nat) /\ get_item c1 128 = Done (0%nat, Some 1%nat) /\ get_item c1 0 = Done (0%nat, Some 0%nat).
Proof. eexists _, _. split; [vm_compute; reflexivity|]. vm_compute. auto. Qed.
Print Assumptions C46_nontemporal_refuted.

(** * C47 *)
(** What a client without a cache would see: bytes, the blocks written while write-back is in force, and the two modes. *)
Record flat := mkFlat { f_mem : N -> N; f_dirty : N -> bool; f_through : bool; f_alloc : bool }.
(** The calls the claim is about. A write that runs over the end of its line needs write-allocate mode (it then throws); a line is
    invalidated only if it was never written in write-back mode. *)
Definition allowed (L : N) (f : flat) (o : sop) : Prop :=
  op_addr o < 2 ^ 64 /\
  match o with
  | SWrite a buf => a mod L + N.of_nat (length buf) <= L \/ f_alloc f = true
  | SInvalidate a => f_dirty f (a / L) = false
  | SClear => forall b, f_dirty f b = false
  | _ => True
  end.
Definition flat_answer (L : N) (f : flat) (o : sop) : option answer :=
  match o with
  | SRead a n => Some (if a mod L + n <=? L then ABytes (mget (f_mem f) a (N.to_nat n)) else AThrown)
  | SWrite a buf => Some (if a mod L + N.of_nat (length buf) <=? L then ADone else AThrown)
  | SLine a => Some (ABytes (mget (f_mem f) (a / L * L) (N.to_nat L)))
  | _ => None
  end.
Definition flat_step (L : N) (f : flat) (o : sop) : flat :=
  match o with
  | SWrite a buf => if a mod L + N.of_nat (length buf) <=? L
      then mkFlat (mput (f_mem f) a buf) (fun b => f_dirty f b || negb (f_through f) && (b =? a / L)) (f_through f) (f_alloc f) else f
  | SThrough b => mkFlat (f_mem f) (f_dirty f) b (f_alloc f)
  | SAlloc b => mkFlat (f_mem f) (f_dirty f) (f_through f) b
  | _ => f
  end.
(** The whole history: the calls are allowed one after the other, and the answers are the ones of the flat memory. *)
Fixpoint allowed_all (L : N) (f : flat) (ops : list sop) : Prop :=
  match ops with [] => True | o :: r => allowed L f o /\ allowed_all L (flat_step L f o) r end.
Fixpoint agree (L : N) (f : flat) (ops : list sop) (rs : list answer) : Prop :=
  match ops, rs with
  | [], [] => True
  | o :: r, x :: xs => (match flat_answer L f o with Some y => x = y | None => True end) /\ agree L (flat_step L f o) r xs
  | _, _ => False
  end.
Fixpoint flat_run (L : N) (f : flat) (ops : list sop) : flat := match ops with [] => f | o :: r => flat_run L (flat_step L f o) r end.

Section Invisible.
  Context {R : Type} (p : policy R) (W : nat) (P : R -> Prop) (d : decoder) (L S : N).
  Hypothesis PO : pol_ok p W P.
  Hypothesis DO : dec_ok d L S.
  Notation SI := (SI W P d L S).
  Lemma step_SI : forall f s o, SI (f_mem f) (f_dirty f) s -> s_through s = f_through f -> s_alloc s = f_alloc f -> allowed L f o ->
    exists s' r, sstep p s o = Done (s', r) /\ SI (f_mem (flat_step L f o)) (f_dirty (flat_step L f o)) s' /\
      s_through s' = f_through (flat_step L f o) /\ s_alloc s' = f_alloc (flat_step L f o) /\ match flat_answer L f o with Some y => r = y | None => True end.
  Proof.
    intros f s o HS HT HAL [Ha HOK]. pose proof HS as [HC HL HAB HD]. pose proof (do_L _ _ _ DO) as LP.
    assert (LD : forall s' i w l a, CI W P d L S (s_cache s') -> SI (f_mem f) (f_dirty f) s' -> at_ (s_cache s') i w l -> blk L l = Some (a / L) -> ln_data l = mget (f_mem f) (a / L * L) (N.to_nat L)).
    { intros s' i w l a HC' HS' A1 B1. destruct HS' as [_ Q _ _]. apply (Q _ _ _ _ A1 B1). }
    destruct o as [a n|a buf|a|a| |a|a|b|b]; cbn [op_addr sstep flat_step flat_answer] in *.
    - destruct (get_line_ok p W P d L S PO DO s a HC Ha) as [s1 [w [l [E [HC1 [A1 [B1 [M1 [M2 _]]]]]]]]]. unfold sc_read. rewrite E. cbn [obind].
      destruct (at_line _ _ _ _ A1) as [st [N1 N2]]. rewrite N1. cbn [obind]. rewrite N2. cbn [obind]. rewrite (ci_dec _ _ _ _ _ _ HC1), (do_off _ _ _ DO).
      pose proof (get_line_SI p W P d L S PO DO _ _ _ _ _ _ _ HS Ha E) as HS1. rewrite (read_block d L S DO _ a n l (LD _ _ _ _ _ HC1 HS1 A1 B1)).
      eexists _, _. split; [reflexivity|]. split; [exact HS1|]. split; [congruence|]. split; [congruence|]. destruct (a mod L + n <=? L); reflexivity.
    - destruct (write_ok p W P d L S PO DO s a buf HC Ha) as [[K1 [K2 K3]]|[K1 [s1 [w [l [E [A1 [B1 K5]]]]]]]].
      + rewrite K3. eexists _, _. split; [reflexivity|]. destruct (N.leb_spec (a mod L + N.of_nat (length buf)) L) as [HN|HN]; [|destruct HOK; [lia|congruence]].
        cbn [f_mem f_dirty f_through f_alloc s_through s_alloc]. split; [|auto]. constructor; cbn [s_cache s_mem].
        * exact HC.
        * intros i w l b A1 B1. destruct (HL _ _ _ _ A1 B1) as [Q1 Q2]. split.
          { rewrite Q1. apply mget_ext. intros x X1 X2. symmetry. apply (mput_other d L S DO); [exact HN|]. rewrite (in_block d L S DO b x) by lia. intros ->. exact (K1 _ _ _ A1 B1). }
          { intros X x Hx. apply mput_same. apply Q2; assumption. }
        * intros x Hx. apply mput_same. apply HAB. exact Hx.
        * intros x Hx. apply mput_same. apply HD. apply orb_false_elim in Hx. tauto.
      + pose proof (get_line_SI p W P d L S PO DO _ _ _ _ _ _ _ HS Ha E) as HS1. pose proof HS1 as [HC1 HL1 HAB1 HD1].
        rewrite (write_block d L S DO _ a buf l (LD _ _ _ _ _ HC1 HS1 A1 B1)) in K5. destruct (N.leb_spec (a mod L + N.of_nat (length buf)) L) as [HN|HN].
        * destruct K5 as [c' [K5 [HC' K6]]]. rewrite K5. eexists _, _. split; [reflexivity|]. cbn [f_mem f_dirty f_through f_alloc s_through s_alloc]. split; [|auto].
          assert (MX : forall x, s_mem s1 x = f_mem f x -> x / L <> a / L -> (if s_through s then mput (s_mem s1) a buf else s_mem s1) x = mput (f_mem f) a buf x).
          { intros x X1 X2. rewrite (mput_other d L S DO (f_mem f)) by assumption. destruct (s_through s); [rewrite (mput_other d L S DO) by assumption|]; exact X1. }
          assert (NB : forall i' w' m b, at_ (s_cache s1) i' w' m -> Nat.eqb i' (home L S a) && Nat.eqb w' w = false -> blk L m = Some b -> b <> a / L).
          { intros i' w' m b X1 X2 X3 ->. destruct (ci_uniq _ _ _ _ _ _ HC1 _ _ _ _ _ _ _ X1 A1 X3 B1) as [-> ->]. rewrite !Nat.eqb_refl in X2. discriminate. }
          constructor; cbn [s_cache s_mem].
          { exact HC'. }
          { intros i' w' m b X1 X2. apply K6 in X1. destruct (Nat.eqb i' (home L S a) && Nat.eqb w' w) eqn:EQ.
            - subst m. rewrite blk_data, B1 in X2. injection X2 as <-. cbn [ln_data ln_mod]. split; [reflexivity|discriminate].
            - pose proof (NB _ _ _ _ X1 EQ X2) as NE. destruct (HL1 _ _ _ _ X1 X2) as [Q1 Q2]. split.
              + rewrite Q1. apply mget_ext. intros x Y1 Y2. symmetry. apply (mput_other d L S DO); [exact HN|]. rewrite (in_block d L S DO b x) by lia. exact NE.
              + intros X x Hx. apply MX; [apply Q2; assumption|congruence]. }
          { intros x Hx. assert (NE : x / L <> a / L).
            { intros Q. apply (Hx (home L S a) w _ (proj2 (K6 _ _ _) ltac:(rewrite !Nat.eqb_refl; reflexivity))). rewrite blk_data. congruence. }
            apply MX; [|exact NE]. apply HAB1. intros i' w' m X1 X2. destruct (Nat.eqb i' (home L S a) && Nat.eqb w' w) eqn:EQ.
            - apply andb_prop in EQ. destruct EQ as [U V]. apply Nat.eqb_eq in U, V. subst i' w'. pose proof (at_fun _ _ _ _ _ X1 A1). subst m. congruence.
            - apply (Hx i' w' m); [|exact X2]. apply K6. rewrite EQ. exact X1. }
          { intros x Hx. apply orb_false_elim in Hx. destruct Hx as [X1 X2]. rewrite HT. destruct (f_through f) eqn:EF.
            - apply mput_same. apply HD1. exact X1.
            - cbn in X2. apply N.eqb_neq in X2. rewrite (mput_other d L S DO) by assumption. apply HD1. exact X1. }
        * rewrite K5. eexists _, _. split; [reflexivity|]. split; [exact HS1|].
          destruct (get_line_ok p W P d L S PO DO s a HC Ha) as [s1' [w1 [l1 [E1 [_ [_ [_ [M1 [M2 _]]]]]]]]]. rewrite E in E1. injection E1 as <- _. split; [congruence|]. split; [congruence|reflexivity].
    - destruct (get_line_ok p W P d L S PO DO s a HC Ha) as [s1 [w [l [E [HC1 [A1 [B1 [M1 [M2 _]]]]]]]]]. unfold sc_line. rewrite E. cbn [obind].
      destruct (at_line _ _ _ _ A1) as [st [N1 N2]]. rewrite N1. cbn [obind]. rewrite N2. cbn [obind].
      pose proof (get_line_SI p W P d L S PO DO _ _ _ _ _ _ _ HS Ha E) as HS1. rewrite (LD _ _ _ _ _ HC1 HS1 A1 B1).
      eexists _, _. split; [reflexivity|]. split; [exact HS1|]. split; [congruence|]. split; [congruence|reflexivity].
    - destruct (sc_invalidate_ok p W P d L S PO DO s a HC Ha) as [[K1 K2]|[i [w [l [s' [K1 [K2 [K3 [HC' [M1 [M2 [M3 K4]]]]]]]]]]]].
      + rewrite K2. eexists _, _. split; [reflexivity|]. auto.
      + rewrite K3. eexists _, _. split; [reflexivity|]. split; [|split; [congruence|split; [congruence|exact Logic.I]]]. constructor.
        * exact HC'.
        * intros i' w' m b X1 X2. apply K4 in X1. rewrite M3. destruct (Nat.eqb i' i && Nat.eqb w' w); [subst m; discriminate|]. apply (HL _ _ _ _ X1 X2).
        * intros x Hx. rewrite M3. destruct (N.eq_dec (x / L) (a / L)) as [E|E]; [apply HD; rewrite E; exact HOK|]. apply HAB. intros i' w' m X1 X2. apply (Hx i' w' m); [|exact X2].
          apply K4. destruct (Nat.eqb i' i && Nat.eqb w' w) eqn:EQ; [|exact X1]. apply andb_prop in EQ. destruct EQ as [U V]. apply Nat.eqb_eq in U, V. subst i' w'.
          pose proof (at_fun _ _ _ _ _ X1 K1). subst m. congruence.
        * intros x Hx. rewrite M3. auto.
    - destruct (clear_ok p W P d L S PO (s_cache s) HC) as [Q1 Q2]. eexists _, _. split; [reflexivity|]. split; [|auto]. constructor; cbn [s_cache s_mem].
      + exact Q1.
      + intros i w l b X1 X2. rewrite (Q2 _ _ _ X1) in X2. discriminate.
      + intros x _. apply HD. apply HOK.
      + exact HD.
    - destruct (is_hit_ok W P d L S DO _ a HC) as [h [E _]]. rewrite E. cbn [obind]. eexists _, _. split; [reflexivity|]. auto.
    - unfold hit_castout. destruct (get_item_ok W P d L S DO _ a HC) as [r [E1 E2]]. rewrite E1. cbn [obind]. destruct r as [w|]; cbn [obind]; [eexists _, _; split; [reflexivity|]; auto|].
      destruct (lru_item_ok p W P d L S PO DO _ a HC) as [w [l [F1 F2]]]. rewrite F1. cbn [obind]. eexists _, _. split; [reflexivity|]. auto.
    - eexists _, _. split; [reflexivity|]. cbn [f_mem f_dirty f_through f_alloc s_through s_alloc]. split; [|auto]. constructor; auto.
    - eexists _, _. split; [reflexivity|]. cbn [f_mem f_dirty f_through f_alloc s_through s_alloc]. split; [|auto]. constructor; auto.
  Qed.
  Lemma run_SI : forall ops f s, SI (f_mem f) (f_dirty f) s -> s_through s = f_through f -> s_alloc s = f_alloc f -> allowed_all L f ops ->
    exists s' rs, srun p s ops = Done (s', rs) /\ agree L f ops rs /\ SI (f_mem (flat_run L f ops)) (f_dirty (flat_run L f ops)) s'.
  Proof.
    induction ops as [|o ops IH]; intros f s HS HT HA HO; cbn [srun agree flat_run allowed_all] in *; [exists s, []; auto|].
    destruct HO as [H1 H2]. destruct (step_SI f s o HS HT HA H1) as [s1 [r [E [HS1 [HT1 [HA1 HR]]]]]]. rewrite E. cbn [obind].
    destruct (IH _ s1 HS1 HT1 HA1 H2) as [s2 [rs [E2 [AG HS2]]]]. rewrite E2. cbn [obind]. exists s2, (r :: rs). auto.
  Qed.
End Invisible.

(** Every history of allowed calls gets the answers of the flat memory, whatever the policy, the ways, the sets and the modes; and
    the next level holds the client's bytes for every block never written in write-back mode. *)
Theorem C47_invisible : forall R (p : policy R) W P sz L stride kb l s dflt c th al m ops,
  pol_ok p W P -> regular sz L stride (N.of_nat W) kb l s -> ln_valid dflt = false -> length (ln_data dflt) = N.to_nat L ->
  make_cache p sz L stride W kb dflt = Some c -> allowed_all L (mkFlat m (fun _ => false) th al) ops ->
  exists s' rs, srun p (mkSimple c th al m) ops = Done (s', rs) /\ agree L (mkFlat m (fun _ => false) th al) ops rs /\
    forall x, f_dirty (flat_run L (mkFlat m (fun _ => false) th al) ops) (x / L) = false -> s_mem s' x = f_mem (flat_run L (mkFlat m (fun _ => false) th al) ops) x.
Proof.
  intros R p W P sz L stride kb l s dflt c th al m ops PO HR HV HD HM HO. destruct (make_CI _ _ _ _ _ _ _ _ _ _ _ _ PO HR HV HD HM) as [d [DO [HC HA]]].
  destruct (run_SI p W P d L (2 ^ s) PO DO ops (mkFlat m (fun _ => false) th al) (mkSimple c th al m)) as [s' [rs [E [AG HS]]]]; auto.
  - constructor; cbn [f_mem f_dirty s_cache s_mem]; auto. intros i w x b A1 B1. rewrite (HA _ _ _ A1) in B1. unfold blk in B1. rewrite HV in B1. discriminate.
  - exists s', rs. split; [exact E|]. split; [exact AG|]. exact (si_clean _ _ _ _ _ _ _ _ HS).
Qed.
Definition story : list sop := [SWrite 3 [9;8]; SRead 0 6; SRead 128 2; SRead 256 2; SRead 2 4; SThrough true; SWrite 300 [5]; SRead 300 1; SInvalidate 300; SLine 288; SAlloc false; SWrite 1030 [1;2]; SRead 1028 5; SRead 10 9].
Example C47_invisible_ex : allowed_all 16 (mkFlat ramp (fun _ => false) false true) story /\
  match srun (lru_policy 2) (mkSimple lru8 false true ramp) story with
  | Done (s, rs) => map (fun i => nth i rs ADone) [1;4;7;12;13]%nat = [ABytes [0;1;2;9;8;5]; ABytes [2;9;8;5]; ABytes [5]; ABytes [24;25;1;2;28]; AThrown] /\ s_mem s 300 = 5 /\ s_mem s 3 = 9
  | _ => False end.
Proof.
  split; [|vm_compute; auto]. cbn [allowed_all story]. repeat (split; [split; [vm_compute; reflexivity|]; try exact Logic.I; try (left; vm_compute; discriminate); vm_compute; reflexivity|]). exact Logic.I.
Qed.
Print Assumptions C47_invisible.
(** The shipped policies honour the interface. *)
Theorem C47_lru : forall W, (0 < W)%nat -> exists P, pol_ok (lru_policy W) W P.
Proof. intros W HW. eexists. apply lru_pol_ok. exact HW. Qed.
Example C47_lru_ex : match srun (lru_policy 2) (mkSimple lru8 true false ramp) story with Done (s, rs) => nth 1 rs ADone = ABytes [0;1;2;9;8;5] | _ => False end.
Proof. vm_compute. reflexivity. Qed.
Print Assumptions C47_lru.
Theorem C47_plru : forall k, exists P, pol_ok (plru_policy k) (2 ^ k) P.
Proof. intros k. eexists. apply plru_pol_ok. Qed.
Example C47_plru_ex : match srun (plru_policy 2) (mkSimple plru4 false true ramp) story with Done (s, rs) => nth 4 rs ADone = ABytes [2;9;8;5] | _ => False end.
Proof. vm_compute. reflexivity. Qed.
Print Assumptions C47_plru.

(** The limits are real. A write over the end of a line in no-write-allocate mode reaches the next level behind the back of the
    cached neighbour. *)
Theorem C47_crossing_write_refuted : exists s rs, srun (lru_policy 2) (mkSimple lru8 true false ramp) [SRead 16 1; SWrite 15 [70;71]; SRead 16 1] = Done (s, rs) /\
  rs = [ABytes [16]; ADone; ABytes [16]] /\ s_mem s 16 = 71.
Proof. eexists _, _. split; [vm_compute; reflexivity|]. vm_compute. auto. Qed.
Print Assumptions C47_crossing_write_refuted.
(** Invalidating a modified line loses the write. *)
Theorem C47_invalidate_refuted : exists s rs, srun (lru_policy 2) (mkSimple lru8 false true ramp) [SWrite 20 [99]; SInvalidate 20; SRead 20 1] = Done (s, rs) /\
  rs = [ADone; ADone; ABytes [20]].
Proof. eexists _, _. split; [vm_compute; reflexivity|]. reflexivity. Qed.
Print Assumptions C47_invalidate_refuted.
(** 6 sets, which the constructor accepts: different blocks share set and tag, and a read returns another block's bytes. *)
Theorem C47_irregular_refuted : exists c s rs, make_cache (lru_policy 2) 192 16 16 2 false blank = Some c /\
  srun (lru_policy 2) (mkSimple c false true ramp) [SRead 0 1; SRead 32 1] = Done (s, rs) /\ rs = [ABytes [0]; ABytes [0]].
Proof. eexists _, _, _. split; [vm_compute; reflexivity|]. split; [vm_compute; reflexivity|]. reflexivity. Qed.
Print Assumptions C47_irregular_refuted.
