(* Lemmas about ClockModel. *)
Require Import NArith ZArith Bool List Lia ZifyN ZifyBool.
Require Import Verif.MathUtilsModel Verif.MathUtilsProps Verif.RationalModel Verif.RationalProofs Verif.ClockModel.
Import ListNotations.
Open Scope N_scope.

Lemma W64_small x : x < 2 ^ 64 -> W64 x = x.
Proof. apply N.mod_small. Qed.

Lemma sub64_small a b : b <= a -> a < 2 ^ 64 -> sub64 a b = a - b.
Proof.
  intros H1 H2. unfold sub64. rewrite (W64_small b) by lia. unfold W64.
  replace (a + (2 ^ 64 - b)) with ((a - b) + 1 * 2 ^ 64) by lia.
  rewrite N.mod_add by discriminate. apply N.mod_small. lia.
Qed.

Lemma edge_floor x p : p <> 0 -> x / p * p <= x < x / p * p + p.
Proof.
  intros Hp. pose proof (N.div_mod x p Hp). pose proof (N.mod_lt x p Hp). lia.
Qed.

Lemma mod0_edge x p : p <> 0 -> (x / p * p = x <-> x mod p = 0).
Proof. intros Hp. pose proof (N.div_mod x p Hp). lia. Qed.

Lemma edge_mod q p : p <> 0 -> (q * p) mod p = 0.
Proof. apply N.mod_mul. Qed.

Lemma edge_ex x p : p <> 0 -> x mod p = 0 -> exists q, x = q * p.
Proof. intros Hp H. exists (x / p). pose proof (N.div_mod x p Hp). lia. Qed.

Lemma crossing_correct cur sd sp dd dp :
  sp <> 0 -> dp <> 0 -> cur mod sp = 0 -> cur + sd + dd + dp < 2 ^ 64 ->
  exists d, crossing_delay cur sd sp dd dp = Ok d /\
    (cur + d) mod dp = 0 /\ sd + dd <= d /\ d < sd + dd + dp /\
    (forall e, e mod dp = 0 -> cur + sd + dd <= e -> cur + d <= e).
Proof.
  intros Hs Hd Hcur Hov. unfold crossing_delay.
  rewrite (proj2 (N.eqb_neq sp 0) Hs), (proj2 (N.eqb_neq dp 0) Hd).
  rewrite (proj2 (mod0_edge cur sp Hs) Hcur).
  rewrite (W64_small cur), N.eqb_refl by lia. cbn [negb].
  rewrite (W64_small (sd + dd)) by lia. rewrite (W64_small (cur + (sd + dd))) by lia.
  set (a := cur + (sd + dd)).
  pose proof (edge_floor a dp Hd) as Hf.
  rewrite (W64_small (a / dp * dp)) by lia.
  destruct (N.eqb_spec a (a / dp * dp)) as [E|E].
  - exists (sd + dd). split; [reflexivity|]. repeat split; try lia.
    fold a. now apply mod0_edge.
  - rewrite (proj2 (N.ltb_lt _ _)) by lia. cbn [negb].
    rewrite (sub64_small a) by lia. rewrite sub64_small by lia.
    rewrite W64_small by lia.
    set (q := a / dp) in *.
    exists (sd + dd + (dp - (a - q * dp))). split; [reflexivity|].
    replace (cur + (sd + dd + (dp - (a - q * dp)))) with ((q + 1) * dp) by lia.
    repeat split; try lia.
    + now apply edge_mod.
    + intros e He Hle. destruct (edge_ex e dp Hd He) as [k ->].
      assert (q < k) by nia. nia.
Qed.

Lemma reverse_correct arr sd sp dd dp :
  sp <> 0 -> dp <> 0 -> arr mod dp = 0 -> sd + dd <= arr -> arr < 2 ^ 64 ->
  exists d, reverse_crossing_delay arr sd sp dd dp = Ok d /\ d <= arr /\
    (arr - d) mod sp = 0 /\ arr - d + sd + dd <= arr /\
    (forall s, s mod sp = 0 -> s + sd + dd <= arr -> s <= arr - d).
Proof.
  intros Hs Hd Harr Hle Hlt. unfold reverse_crossing_delay.
  rewrite (proj2 (N.eqb_neq sp 0) Hs), (proj2 (N.eqb_neq dp 0) Hd).
  rewrite (proj2 (mod0_edge arr dp Hd) Harr).
  rewrite (W64_small arr), N.eqb_refl by lia. cbn [negb].
  rewrite (W64_small (sd + dd)) by lia. rewrite (sub64_small arr) by lia.
  remember (arr - (sd + dd)) as a eqn:Ea.
  pose proof (edge_floor a sp Hs) as Hf.
  rewrite (W64_small (a / sp * sp)) by lia.
  destruct (N.eqb_spec a (a / sp * sp)) as [E|E].
  - exists (sd + dd). split; [reflexivity|]. rewrite <- Ea. repeat split; try lia.
    now apply mod0_edge.
  - rewrite (proj2 (N.ltb_lt _ _)) by lia. cbn [negb].
    rewrite (sub64_small a) by lia. pose proof (N.le_sub_l a (a / sp * sp)). rewrite W64_small by lia.
    set (q := a / sp) in *.
    exists (sd + dd + (a - q * sp)). split; [reflexivity|].
    replace (arr - (sd + dd + (a - q * sp))) with (q * sp) by lia.
    repeat split; try lia.
    + now apply edge_mod.
    + intros e He Hle'. destruct (edge_ex e sp Hs He) as [k ->].
      assert (k <= q) by nia. nia.
Qed.

(* --- clock normalisation --- *)

Lemma ctree_ind' (P : ctree -> Prop) :
  (forall p c ks, Forall P ks -> P (CT p c ks)) -> forall t, P t.
Proof.
  intros H. fix IH 1. intros [p c ks]. apply H.
  induction ks as [|k ks IHks]; constructor; [apply IH|exact IHks].
Qed.

(* Exact period requirement and the no-overflow side condition; the definitions restated in ClockProps
   are these. *)
Fixpoint realises (t : ctree) (pt : ptree) {struct t} : Prop :=
  match t, pt with
  | CT _ _ kids, PT per pkids =>
      0 < per /\
      (fix all (ks : list ctree) (pks : list ptree) : Prop :=
         match ks, pks with
         | [], [] => True
         | (CT p c _ as k) :: ks', (PT kper _ as pk) :: pks' =>
             kper * p = per * c /\ realises k pk /\ all ks' pks'
         | _, _ => False
         end) kids pkids
  end.

Fixpoint fits_tree (M n d : N) (t : ctree) {struct t} : Prop :=
  match t with
  | CT _ _ kids =>
      (d | M) /\ n * M < 2 ^ 32 /\
      (fix all (ks : list ctree) : Prop :=
         match ks with
         | [] => True
         | (CT p c _ as k) :: ks' =>
             (0 < p /\ 0 < c /\ p < 2 ^ 32 /\ c < 2 ^ 32 /\
              let n' := c / N.gcd p c * n in
              let d' := p / N.gcd p c * d in
              n' < 2 ^ 32 /\ d' < 2 ^ 32 /\
              fits_tree M (n' / N.gcd n' d') (d' / N.gcd n' d') k) /\
             all ks'
         end) kids
  end.

Fixpoint scale (k : N) (pt : ptree) : ptree :=
  match pt with PT per kids => PT (k * per) (map (scale k) kids) end.

Lemma mk_reduced w n d : w = 32 \/ w = 64 -> d <> 0 -> n < 2 ^ w -> d < 2 ^ w ->
  mk w n d = Some (Rat (n / N.gcd n d) (d / N.gcd n d)).
Proof.
  intros Hw Hd Hn Hdw. destruct (mk_correct w n d Hw Hd Hn Hdw) as (r & -> & Hc & Hf & Hv).
  f_equal. apply canonical_unique; auto.
  - split; cbn [rn rd]; [|now apply gcd_div].
    assert (N.gcd n d <> 0) by (intros E; apply N.gcd_eq_0_r in E; contradiction).
    destruct (N.gcd_divide_r n d) as [b Eb]. rewrite Eb at 1. rewrite N.div_mul by assumption.
    intros ->. lia.
  - cbn [rn rd].
    assert (Hg0 : N.gcd n d <> 0) by (intros E; apply N.gcd_eq_0_r in E; contradiction).
    destruct (N.gcd_divide_l n d) as [a Ea]. destruct (N.gcd_divide_r n d) as [b Eb].
    set (g := N.gcd n d) in *.
    assert (Ean : n / g = a) by (rewrite Ea; now apply N.div_mul).
    assert (Ebd : d / g = b) by (rewrite Eb; now apply N.div_mul).
    rewrite Ean, Ebd. clear Ean Ebd. rewrite Ea, Eb in Hv.
    apply (N.mul_cancel_r _ _ g); [assumption|]. lia.
Qed.

Definition red (n d : N) : rational := Rat (n / N.gcd n d) (d / N.gcd n d).

Lemma red_canonical n d : d <> 0 -> canonical (red n d).
Proof.
  intros Hd. split; cbn [rn rd red]; [|now apply gcd_div].
  assert (N.gcd n d <> 0) by (intros E; apply N.gcd_eq_0_r in E; contradiction).
  destruct (N.gcd_divide_r n d) as [b Eb]. rewrite Eb at 1. rewrite N.div_mul by assumption.
  intros ->. lia.
Qed.

Lemma red_value n d : d <> 0 -> rn (red n d) * d = n * rd (red n d).
Proof.
  intros Hd. cbn [rn rd red].
  assert (Hg0 : N.gcd n d <> 0) by (intros E; apply N.gcd_eq_0_r in E; contradiction).
  destruct (N.gcd_divide_l n d) as [a Ea]. destruct (N.gcd_divide_r n d) as [b Eb].
  set (g := N.gcd n d) in *.
  assert (Ean : n / g = a) by (rewrite Ea; now apply N.div_mul).
  assert (Ebd : d / g = b) by (rewrite Eb; now apply N.div_mul).
  rewrite Ean, Ebd. lia.
Qed.

Lemma div_le_self a b : a / b <= a.
Proof.
  destruct (N.eq_dec b 0) as [->|H]; [destruct a; cbn; lia|].
  apply N.div_le_upper_bound; nia.
Qed.

Lemma red_fits n d : n < 2 ^ 32 -> d < 2 ^ 32 -> fits 32 (red n d).
Proof.
  intros. pose proof (div_le_self n (N.gcd n d)). pose proof (div_le_self d (N.gcd n d)).
  split; cbn [rn rd red]; lia.
Qed.

Lemma child_rr p c rr :
  0 < p -> 0 < c -> p < 2 ^ 32 -> c < 2 ^ 32 -> canonical rr ->
  c / N.gcd p c * rn rr < 2 ^ 32 -> p / N.gcd p c * rd rr < 2 ^ 32 ->
  child_root_ratio p c rr = Some (red (c / N.gcd p c * rn rr) (p / N.gcd p c * rd rr)).
Proof.
  intros Hp Hc Hpw Hcw [Hrd Hrg] H1 H2. unfold child_root_ratio.
  rewrite mk_reduced by (auto; lia). fold (red p c).
  assert (Hg0 : N.gcd p c <> 0) by (intros E; apply N.gcd_eq_0_r in E; lia).
  assert (Hcp : c / N.gcd p c <> 0 /\ p / N.gcd p c <> 0).
  { split; apply N.neq_0_lt_0, N.div_str_pos; split; try lia; apply N.divide_pos_le; try lia;
      [apply N.gcd_divide_r|apply N.gcd_divide_l]. }
  unfold rinv. cbn [rn rd red].
  pose proof (div_le_self p (N.gcd p c)). pose proof (div_le_self c (N.gcd p c)).
  rewrite mk_reduced by (auto; lia || tauto).
  rewrite (N.gcd_comm (c / _)), gcd_div by lia. rewrite !N.div_1_r.
  unfold rmul. cbn [rn rd]. rewrite !wrap_small by assumption.
  rewrite mk_reduced; auto. destruct Hcp. nia.
Qed.

(* The annotated tree carries the exact reduced ratios. *)
Fixpoint good (n : N) (t : ctree) (rt : rtree) {struct t} : Prop :=
  match t, rt with
  | CT _ _ kids, RT rr rkids =>
      canonical rr /\ 0 < rn rr /\ (rd rr | n) /\
      (fix all (ks : list ctree) (rks : list rtree) : Prop :=
         match ks, rks with
         | [], [] => True
         | (CT p c _ as k) :: ks', (RT krr _ as rk) :: rks' =>
             (0 < p /\ 0 < c /\ rn krr * (rd rr * p) = rn rr * c * rd krr) /\ good n k rk /\ all ks' rks'
         | _, _ => False
         end) kids rkids
  end.

(* numerators times M fit *)
Fixpoint numfit (M : N) (rt : rtree) : Prop :=
  match rt with
  | RT rr rkids => rn rr * M < 2 ^ 32 /\ rd rr < 2 ^ 32 /\
      (fix all (rks : list rtree) : Prop :=
         match rks with [] => True | rk :: rks' => numfit M rk /\ all rks' end) rkids
  end.

(* R is a multiple of every denominator in the tree *)
Fixpoint alldiv (R : N) (rt : rtree) : Prop :=
  match rt with
  | RT rr rkids => (rd rr | R) /\
      (fix all (rks : list rtree) : Prop :=
         match rks with [] => True | rk :: rks' => alldiv R rk /\ all rks' end) rkids
  end.

Lemma good_mono t : forall n n' rt, (n | n') -> good n t rt -> good n' t rt.
Proof.
  induction t as [p c ks IH] using ctree_ind'. intros n n' [rr rks] Hd. cbn [good].
  intros (H1 & H2 & H3 & H4). repeat split; try tauto; try apply H1.
  { eapply N.divide_trans; eassumption. }
  clear H1 H2 H3. revert rks H4. induction ks as [|[p' c' ks'] ks IHks]; intros [|[krr ?] rks]; try tauto.
  intros (H1 & H2 & H3). inversion IH; subst. split; [exact H1|]. split.
  - eapply H4; eassumption.
  - apply IHks; assumption.
Qed.

Lemma lcm32_ok a b M : M < 2 ^ 32 -> M <> 0 -> (a | M) -> (b | M) ->
  lcm32 a b = Some (N.lcm a b) /\ (N.lcm a b | M).
Proof.
  intros HM HM0 Ha Hb.
  assert (a <> 0) by (intros ->; apply N.divide_0_l in Ha; contradiction).
  assert (a <= M) by (apply N.divide_pos_le; lia || assumption).
  assert (b <= M) by (apply N.divide_pos_le; lia || assumption).
  assert (HL : (N.lcm a b | M)) by now apply N.lcm_least.
  assert (N.lcm a b <= M) by (apply N.divide_pos_le; lia || assumption).
  split; [|assumption]. apply C30_lcm32; lia.
Qed.

Lemma kids_norm_cons calc rr p c kk ks pn : kids_norm calc rr (CT p c kk :: ks) pn =
  match child_root_ratio p c rr with
  | None => None
  | Some krr =>
      match calc krr pn (CT p c kk) with
      | None => None
      | Some (kt, kn) =>
          match lcm32 pn kn with
          | None => None
          | Some pn' =>
              match kids_norm calc rr ks pn' with
              | None => None
              | Some (kts, n) => Some (kt :: kts, n)
              end
          end
      end
  end.
Proof. reflexivity. Qed.

Lemma kids_periods_cons setp k ks : kids_periods setp (k :: ks) =
  match setp k with
  | None => None
  | Some pk => match kids_periods setp ks with None => None | Some pks => Some (pk :: pks) end
  end.
Proof. reflexivity. Qed.

Lemma calc_norm_ok M t : M < 2 ^ 32 -> M <> 0 -> forall rr partial,
  canonical rr -> fits 32 rr -> 0 < rn rr -> (partial | M) -> fits_tree M (rn rr) (rd rr) t ->
  exists rt n, calc_norm rr partial t = Some (rt, n) /\ (n | M) /\ (partial | n) /\
    (match rt with RT r _ => r = rr end) /\ good n t rt /\ numfit M rt /\
    (forall R, (partial | R) -> alldiv R rt -> (n | R)).
Proof.
  intros HM HM0. induction t as [p c ks IH] using ctree_ind'.
  intros rr partial Hc Hf Hrn Hp Hft. cbn [fits_tree] in Hft. destruct Hft as (Hd & Hn & Hks).
  cbn [calc_norm].
  destruct (lcm32_ok partial (rd rr) M HM HM0 Hp Hd) as [-> HL].
  set (pn0 := N.lcm partial (rd rr)) in *.
  assert (Hpart : (partial | pn0)) by apply N.divide_lcm_l.
  assert (Hrdn : (rd rr | pn0)) by apply N.divide_lcm_r.
  set (go := kids_norm calc_norm rr).
  assert (K : forall pn, (pn | M) -> exists rks n, go ks pn = Some (rks, n) /\ (n | M) /\ (pn | n) /\
     (fix all (ks : list ctree) (rks : list rtree) : Prop :=
         match ks, rks with
         | [], [] => True
         | (CT p c _ as k) :: ks', (RT krr _ as rk) :: rks' =>
             (0 < p /\ 0 < c /\ rn krr * (rd rr * p) = rn rr * c * rd krr) /\ good n k rk /\ all ks' rks'
         | _, _ => False
         end) ks rks /\
     (fix all (rks : list rtree) : Prop :=
         match rks with [] => True | rk :: rks' => numfit M rk /\ all rks' end) rks /\
     (forall R, (pn | R) -> (fix all (rks : list rtree) : Prop :=
         match rks with [] => True | rk :: rks' => alldiv R rk /\ all rks' end) rks -> (n | R))).
  { clear pn0 HL Hpart Hrdn Hp partial. revert Hks IH. induction ks as [|[p' c' kks] ks IHks]; intros Hks IH pn Hpn.
    - exists [], pn. cbn. repeat split; auto. apply N.divide_refl.
    - inversion IH as [|? ? IHk IHrest]; subst.
      destruct Hks as ((H0p & H0c & Hpw & Hcw & Hn' & Hd' & Hfit) & Hrest).
      unfold go. rewrite kids_norm_cons. fold go. rewrite child_rr by assumption.
      set (n' := c' / N.gcd p' c' * rn rr) in *. set (d' := p' / N.gcd p' c' * rd rr) in *.
      assert (Hg0 : N.gcd p' c' <> 0) by (intros E; apply N.gcd_eq_0_r in E; lia).
      assert (Hcp : c' / N.gcd p' c' <> 0 /\ p' / N.gcd p' c' <> 0).
      { split; apply N.neq_0_lt_0, N.div_str_pos; split; try lia; apply N.divide_pos_le; try lia;
          [apply N.gcd_divide_r|apply N.gcd_divide_l]. }
      assert (Hd0 : d' <> 0) by (unfold d'; destruct Hcp, Hc; nia).
      assert (Hn0 : n' <> 0) by (unfold n'; destruct Hcp; nia).
      pose proof (red_canonical n' d' Hd0) as Hcan.
      pose proof (red_fits n' d' Hn' Hd') as Hfits.
      pose proof (red_value n' d' Hd0) as Hval.
      set (krr := red n' d') in *.
      assert (Hkn : 0 < rn krr) by (destruct Hcan as [Hcan _]; nia).
      destruct (IHk krr pn Hcan Hfits Hkn Hpn Hfit) as (rt & n1 & -> & HnM & Hpn1 & Hrr & Hgood & Hnf & Hleast).
      destruct (lcm32_ok pn n1 M HM HM0 Hpn HnM) as [-> HL].
      assert (HLn1 : N.lcm pn n1 = n1) by (apply N.divide_lcm_eq_r; assumption).
      rewrite HLn1 in *.
      destruct (IHks Hrest IHrest n1 HnM) as (rks & n & -> & HnM' & Hn1n & Hall & Hnfs & Hleasts).
      destruct rt as [r rk]. subst r.
      exists (RT krr rk :: rks), n. split; [reflexivity|]. split; [exact HnM'|].
      split; [eapply N.divide_trans; eassumption|]. split; [split; [|split]|split; [split|]]; auto.
      + split; [assumption|]. split; [assumption|]. destruct Hc as [Hrd0 _].
        unfold n', d' in Hval.
        destruct (N.gcd_divide_l p' c') as [a Ea]. destruct (N.gcd_divide_r p' c') as [b Eb].
        set (g := N.gcd p' c') in *.
        assert (Eap : p' / g = a) by (rewrite Ea; now apply N.div_mul).
        assert (Ebc : c' / g = b) by (rewrite Eb; now apply N.div_mul).
        rewrite Eap, Ebc in Hval. rewrite Ea, Eb.
        replace (rn krr * (rd rr * (a * g))) with (rn krr * (a * rd rr) * g) by lia.
        rewrite Hval. lia.
      + eapply good_mono; eassumption.
      + intros R HpR [HaR HallR]. apply Hleasts; auto. }
  destruct (K pn0 HL) as (rks & n & -> & HnM & Hpn & Hall & Hnf & Hleast).
  exists (RT rr rks), n. cbn [good numfit alldiv]. split; [reflexivity|]. split; [exact HnM|].
  split; [eapply N.divide_trans; eassumption|]. split; [reflexivity|].
  split; [split; [exact Hc|split; [exact Hrn|split; [eapply N.divide_trans; eassumption|exact Hall]]]|].
  split; [split; [exact Hn|split; [apply Hf|exact Hnf]]|].
  - intros R HR [Hrd HallR]. apply Hleast; auto. now apply N.lcm_least.
Qed.

Lemma rtree_ind' (P : rtree -> Prop) :
  (forall rr ks, Forall P ks -> P (RT rr ks)) -> forall t, P t.
Proof.
  intros H. fix IH 1. intros [rr ks]. apply H.
  induction ks as [|k ks IHks]; constructor; [apply IH|exact IHks].
Qed.

Lemma set_period_ok rr n M : canonical rr -> fits 32 rr -> (rd rr | n) -> (n | M) -> M <> 0 -> M < 2 ^ 32 ->
  rn rr * M < 2 ^ 32 -> set_period rr n = Some (rn rr * (n / rd rr)).
Proof.
  intros Hc [_ Hfd] [q Hq] HnM HM HM32 Hov. unfold set_period.
  assert (n <= M) by (apply N.divide_pos_le; lia || assumption).
  assert (Hc1 : canonical (Rat n 1)) by (split; cbn [rn rd]; [lia|apply N.gcd_1_r]).
  destruct (rmul_correct 32 rr (Rat n 1)) as (r & -> & Hcr & Hfr & Hv); auto; cbn [rn rd]; [nia|lia|].
  cbn [rn rd] in Hv.
  destruct Hc as [Hrd _].
  assert (E : r = Rat (rn rr * q) 1).
  { apply canonical_unique; [assumption|split; cbn [rn rd]; [lia|apply N.gcd_1_r]|].
    cbn [rn rd]. apply (N.mul_cancel_r _ _ (rd rr)); [assumption|]. nia. }
  rewrite E. cbn [rn rd]. rewrite N.eqb_refl. rewrite Hq, N.div_mul by assumption. reflexivity.
Qed.

Lemma set_periods_ok M n t : M < 2 ^ 32 -> M <> 0 -> (n | M) -> forall rt, good n t rt -> numfit M rt ->
  exists pt, set_periods n rt = Some pt /\ realises t pt /\
   (match rt, pt with RT rr _, PT per _ => per = rn rr * (n / rd rr) end).
Proof.
  intros HM HM0 HnM.
  assert (Hn0 : n <> 0) by (intros ->; apply N.divide_0_l in HnM; contradiction).
  induction t as [p c ks IH] using ctree_ind'. intros [rr rks]. cbn [good numfit].
  intros (Hc & Hrn & Hdn & Hall) (Hov & Hfd & Hnf). cbn [set_periods].
  assert (Hf : fits 32 rr) by (split; [nia|assumption]).
  rewrite (set_period_ok rr n M) by assumption.
  set (go := kids_periods (set_periods n)).
  assert (Hper : 0 < rn rr * (n / rd rr)).
  { destruct Hc as [Hrd _]. destruct Hdn as [q ->]. rewrite N.div_mul by assumption. nia. }
  assert (K : exists pks, go rks = Some pks /\
      (fix all (ks : list ctree) (pks : list ptree) : Prop :=
         match ks, pks with
         | [], [] => True
         | (CT p c _ as k) :: ks', (PT kper _ as pk) :: pks' =>
             kper * p = rn rr * (n / rd rr) * c /\ realises k pk /\ all ks' pks'
         | _, _ => False
         end) ks pks).
  { revert rks Hall Hnf. induction ks as [|[p' c' kks] ks IHks]; intros [|[krr rkk] rks] Hall Hnf; try contradiction.
    - exists []. split; reflexivity.
    - inversion IH as [|? ? IHk IHrest]; subst.
      destruct Hall as ((H0p & H0c & Hrat) & Hg & Hall). destruct Hnf as [Hnk Hnf].
      destruct (IHk _ Hg Hnk) as ([kper kpk] & Eset & Hreal & Hkper).
      destruct (IHks IHrest rks Hall Hnf) as (pks & Ego & Hallp).
      exists (PT kper kpk :: pks). unfold go in *. rewrite kids_periods_cons. rewrite Eset, Ego. split; [reflexivity|].
      split; [|split; assumption].
      subst kper. cbn [good] in Hg. destruct Hg as ((Hkrd & _) & _ & [kq Hkq] & _).
      destruct Hdn as [q Hq]. destruct Hc as [Hrd _].
      rewrite Hq at 2. rewrite Hkq at 1. rewrite !N.div_mul by assumption.
      apply (N.mul_cancel_r _ _ (rd rr * rd krr)); [nia|].
      replace (rn krr * kq * p' * (rd rr * rd krr)) with (rn krr * (rd rr * p') * (kq * rd krr)) by lia.
      rewrite Hrat, <- Hkq, Hq. lia. }
  destruct K as (pks & -> & Hallp).
  exists (PT (rn rr * (n / rd rr)) pks). split; [reflexivity|]. split; [|reflexivity]. split; assumption.
Qed.

(* Any realising assignment has root period divisible by all denominators, and is determined by it. *)
Lemma realises_ratio t : forall n rt R pt, good n t rt -> realises t pt ->
  (match rt, pt with RT rr _, PT per _ => per * rd rr = R * rn rr end) ->
  alldiv R rt.
Proof.
  induction t as [p c ks IH] using ctree_ind'. intros n [rr rks] R [per pks]. cbn [good realises alldiv].
  intros (Hc & Hrn & Hdn & Hall) (Hper & Hreal) Hr.
  assert (Hdiv : (rd rr | R)).
  { apply N.gauss with (rn rr); [exists per; lia|]. destruct Hc. now rewrite N.gcd_comm. }
  split; [assumption|].
  clear Hdiv. revert rks pks Hall Hreal.
  induction ks as [|[p' c' kks] ks IHks]; intros [|[krr rkk] rks] [|[kper kpk] pks] Hall Hreal; try contradiction; auto.
  inversion IH as [|? ? IHk IHrest]; subst.
  destruct Hall as ((H0p & H0c & Hrat) & Hg & Hall). destruct Hreal as (Hk & Hrk & Hreal).
  split; [|eapply IHks; eassumption].
  eapply IHk; try eassumption. cbn.
  destruct Hc as [Hrd _].
  apply (N.mul_cancel_r _ _ (p' * rd rr)); [nia|].
  replace (kper * rd krr * (p' * rd rr)) with (kper * p' * rd krr * rd rr) by lia.
  rewrite Hk.
  replace (per * c' * rd krr * rd rr) with (per * rd rr * c' * rd krr) by lia.
  rewrite Hr. replace (R * rn krr * (p' * rd rr)) with (R * (rn krr * (rd rr * p'))) by lia.
  rewrite Hrat. lia.
Qed.

Fixpoint pos_tree (t : ctree) : Prop :=
  match t with
  | CT _ _ ks =>
      (fix all (ks : list ctree) : Prop :=
         match ks with [] => True | (CT p c _ as k) :: ks' => 0 < p /\ pos_tree k /\ all ks' end) ks
  end.

Lemma realises_scale t : forall k pt pt', realises t pt -> realises t pt' ->
  pos_tree t ->
  (match pt, pt' with PT per _, PT per' _ => per' = k * per end) -> pt' = scale k pt.
Proof.
  induction t as [p c ks IH] using ctree_ind'. intros k [per pks] [per' pks']. cbn [realises scale pos_tree].
  intros (Hper & Hreal) (Hper' & Hreal') Hpos ->. f_equal.
  revert pks pks' Hreal Hreal' Hpos.
  induction ks as [|[p' c' kks] ks IHks]; intros [|[kper kpk] pks] [|[kper' kpk'] pks'] Hreal Hreal' Hpos; try contradiction; auto.
  inversion IH as [|? ? IHk IHrest]; subst.
  destruct Hreal as (Hk & Hrk & Hreal). destruct Hreal' as (Hk' & Hrk' & Hreal').
  destruct Hpos as (Hp & Hposk & Hpos).
  cbn [map]. f_equal; [|eapply IHks; eassumption].
  eapply IHk; try eassumption; auto.
  apply (N.mul_cancel_r _ _ p'); [lia|]. rewrite Hk'. rewrite <- (N.mul_assoc k kper p'), Hk. lia.
Qed.

Lemma fits_pos M t : forall n d, fits_tree M n d t ->
  pos_tree t.
Proof.
  induction t as [p c ks IH] using ctree_ind'. intros n d. cbn [fits_tree pos_tree]. intros (_ & _ & Hks).
  induction ks as [|[p' c' kks] ks IHks]; auto.
  inversion IH as [|? ? IHk IHrest]; subst. destruct Hks as ((H0p & _ & _ & _ & _ & _ & Hf) & Hks).
  split; [assumption|]. split; [eapply IHk; eassumption|]. apply IHks; assumption.
Qed.

Lemma normalize_correct M t : 0 < M -> fits_tree M 1 1 t ->
  exists norm pt, normalize t = Some (norm, pt) /\ realises t pt /\
    (match pt with PT per _ => per = norm end) /\
    (forall pt', realises t pt' -> exists k, pt' = scale k pt).
Proof.
  intros HM Hfit.
  assert (HM32 : M < 2 ^ 32) by (destruct t; cbn [fits_tree] in Hfit; lia).
  assert (Hc1 : canonical (Rat 1 1)) by (split; cbn; [lia|reflexivity]).
  assert (Hf1 : fits 32 (Rat 1 1)) by (split; cbn; lia).
  destruct (calc_norm_ok M t HM32 (N.neq_sym _ _ (N.lt_neq _ _ HM)) (Rat 1 1) 1 Hc1 Hf1) as
    (rt & n & E & HnM & _ & Hrr & Hgood & Hnf & Hleast); auto; cbn [rn rd]; try lia.
  { apply N.divide_1_l. }
  assert (HM0 : M <> 0) by lia.
  destruct (set_periods_ok M n t HM32 HM0 HnM rt Hgood Hnf) as (pt & Eset & Hreal & Hper).
  exists n, pt. unfold normalize. rewrite E, Eset. split; [reflexivity|]. split; [assumption|].
  destruct rt as [rr rks]. destruct pt as [per pks]. subst rr. cbn [rn rd] in Hper.
  rewrite N.div_1_r, N.mul_1_l in Hper. subst per. split; [reflexivity|].
  intros [per' pks'] Hreal'.
  assert (HR : (n | per')).
  { apply Hleast; [apply N.divide_1_l|].
    eapply realises_ratio; [exact Hgood|exact Hreal'|]. cbn. lia. }
  destruct HR as [k Hk]. exists k. eapply realises_scale; try eassumption; auto.
  eapply fits_pos; eassumption.
Qed.
