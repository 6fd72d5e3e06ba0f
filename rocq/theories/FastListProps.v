(** Property C19: sparta::utils::FastList. *)
From Coq Require Import List ZArith Bool Lia Permutation.
From Verif Require Import FastListModel FastListProofs.
Import ListNotations.
Open Scope Z_scope.

Section SPEC.
Context {A : Type}.
Implicit Types (f : fl A) (C : list (Z * A)).

(* What the calls should do to the sequence of (iterator, element). *)
Fixpoint insert_before (pos : Z) (e : Z * A) C : list (Z * A) :=
  match C with [] => [e] | c :: r => if fst c =? pos then e :: c :: r else c :: insert_before pos e r end.
Definition removed (pos : Z) C : list (Z * A) := filter (fun c => negb (fst c =? pos)) C.
Fixpoint following (pos : Z) C : Z :=
  match C with [] => -1 | c :: r => if fst c =? pos then match r with [] => -1 | d :: _ => fst d end else following pos r end.
(* The iterator arguments denote elements of the list, or are end(), where the call allows it. *)
Definition legal C (o : fop A) : Prop :=
  match o with
  | FEmplace pos _ => pos = -1 \/ In pos (map fst C)
  | FErase pos => In pos (map fst C)
  | _ => True end.
Definition fresh (n : Z) (h : Z) C : Prop := 0 <= h < n /\ ~ In h (map fst C) /\ Z.of_nat (length C) < n.
Definition after (n : Z) C (o : fop A) C' (h : Z) : Prop :=
  match o with
  | FEmplace pos x => fresh n h C /\ C' = (if pos =? -1 then C ++ [(h, x)] else insert_before pos (h, x) C)
  | FFront x => fresh n h C /\ C' = (h, x) :: C
  | FBack x => fresh n h C /\ C' = C ++ [(h, x)]
  | FErase pos => h = following pos C /\ C' = removed pos C
  | FPopBack => C <> [] /\ C' = removelast C
  | FPopFront => C <> [] /\ C' = tl C
  | FClear => C' = []
  end.
Definition refused (n : Z) C (o : fop A) : Prop :=
  match o with
  | FEmplace _ _ | FFront _ | FBack _ => Z.of_nat (length C) = n
  | FPopBack | FPopFront => C = []
  | _ => False end.

(* Lists reachable by legal calls. *)
Inductive reach (n : Z) : fl A -> Prop :=
| reach_init : forall f, f_init n = Some f -> reach n f
| reach_step : forall f C o f' h, reach n f -> f_contents f = Some C -> legal C o -> f_step f o = Some (f', h) -> reach n f'.

Definition cell f (i : Z) : list (Z * A) := match f_dat f i with Some x => [(i, x)] | None => [] end.
Definition cells f (l : list Z) : list (Z * A) := flat_map (cell f) l.
Lemma cells_fst : forall f l fr, FI f l fr -> forall m, incl m l -> map fst (cells f m) = m.
Proof.
  intros f l fr I. induction m as [|i m IH]; intros H; auto. unfold cells in *. cbn [flat_map]. rewrite map_app, IH by (intros x Hx; apply H; right; auto).
  unfold cell. destruct (f_dat f i) eqn:E; auto. exfalso. apply (F_live _ _ _ I i); auto. apply H; left; auto.
Qed.
Lemma cells_len : forall f l fr, FI f l fr -> length (cells f l) = length l.
Proof. intros. rewrite <- (map_length fst). erewrite cells_fst; eauto. apply incl_refl. Qed.
Lemma FI_len : forall f l fr, FI f l fr -> Z.of_nat (length l + length fr) = Z.max 0 (f_n f).
Proof.
  intros f l fr I. assert (P : Permutation (l ++ fr) (map Z.of_nat (seq 0 (Z.to_nat (f_n f))))).
  { apply NoDup_Permutation; [apply I| |].
    - clear. generalize 0%nat. induction (Z.to_nat (f_n f)); intros m; cbn [seq map]; constructor; auto. intros K. apply in_map_iff in K as (y & E & Hy). apply in_seq in Hy. lia.
    - intros x. rewrite (F_rng _ _ _ I), in_map_iff. split.
      + intros H. exists (Z.to_nat x). split; [lia|]. apply in_seq. lia.
      + intros (y & <- & Hy). apply in_seq in Hy. lia. }
  apply Permutation_length in P. rewrite app_length, map_length, seq_length in P. lia.
Qed.
Lemma walk_ok : forall f l fr, FI f l fr -> forall m k p fuel, l = k ++ m -> linked (f_nx f) (f_pv f) p m (-1) -> (length m < fuel)%nat ->
  f_walk fuel f (hd (-1) m) = Some (cells f m).
Proof.
  intros f l fr I. induction m as [|i m IH]; intros k p fuel E HL HF; (destruct fuel as [|fuel]; [simpl in HF; lia|]); cbn [f_walk hd].
  - reflexivity.
  - assert (Hi : In i l) by (rewrite E; apply in_or_app; right; left; auto).
    assert (0 <= i < f_n f) by (apply (F_rng _ _ _ I); apply in_or_app; auto). destruct (Z.eqb_spec i (-1)); [lia|].
    cbn [linked] in HL. destruct HL as (_ & H2 & H3). unfold f_deref, f_incr. destruct (Z.eqb_spec i (-1)); [lia|].
    destruct (f_dat f i) as [x|] eqn:ED; [|exfalso; apply (F_live _ _ _ I i); auto]. rewrite H2.
    rewrite (IH (k ++ [i]) i fuel); [|rewrite <- app_assoc; auto|auto|simpl in HF; lia]. cbn [option_map]. unfold cells. cbn [flat_map]. unfold cell at 2. rewrite ED. reflexivity.
Qed.
Lemma contents_ok : forall f l fr, FI f l fr -> f_contents f = Some (cells f l).
Proof.
  intros f l fr I. unfold f_contents, f_begin. rewrite (F_first _ _ _ I). eapply (walk_ok f l fr I l []); eauto; [apply I|].
  pose proof (FI_len f l fr I). lia.
Qed.

Lemma init_FI : forall n f, f_init n = Some f -> 0 < n /\ f_n f = n /\ exists fr, FI f [] fr.
Proof.
  intros n f H. unfold f_init in H. destruct (Z.leb_spec n 0); [discriminate|]. injection H as <-. split; auto. split; auto.
  exists (map Z.of_nat (seq 0 (Z.to_nat n))). constructor; cbn [f_n f_nx f_pv f_dat f_first f_last f_free f_size app hd last linked]; auto.
  - generalize 0%nat. induction (Z.to_nat n); intros k; cbn [seq map]; constructor; auto. intros K. apply in_map_iff in K as (y & E & Hy). apply in_seq in Hy. lia.
  - intros i. rewrite in_map_iff. split.
    + intros (y & <- & Hy). apply in_seq in Hy. lia.
    + intros K. exists (Z.to_nat i). split; [lia|]. apply in_seq. lia.
  - assert (G : forall k s, (s + k = Z.to_nat n)%nat -> chained (zupd (fun i => i + 1) (n - 1) (-1)) (map Z.of_nat (seq s k))).
    { induction k; intros s Hs; cbn [seq map chained]; auto. split; [|apply IHk; lia]. destruct k.
      - cbn [seq map hd]. replace (Z.of_nat s) with (n - 1) by lia. apply zupd_eq.
      - cbn [seq map hd]. rewrite zupd_ne by lia. lia. }
    apply G. lia.
  - destruct (Z.to_nat n) eqn:E; [lia|]. reflexivity.
Qed.

Lemma last_app2 : forall (l m : list Z) d, m <> [] -> last (l ++ m) d = last m d.
Proof. intros l m d H. destruct (exists_last H) as (m' & x & ->). rewrite app_assoc, !last_last. auto. Qed.
Lemma FI_nn : forall f l fr i, FI f l fr -> In i (l ++ fr) -> (i =? -1) = false.
Proof. intros f l fr i I H. apply (F_rng _ _ _ I) in H. apply Z.eqb_neq. lia. Qed.
Lemma free_cases : forall f l fr, FI f l fr -> (f_free f =? -1) = match fr with [] => true | _ => false end.
Proof.
  intros f l fr I. rewrite (F_free _ _ _ I). destruct fr as [|i fr]; auto. cbn [hd]. eapply FI_nn; eauto. apply in_or_app; right; left; auto.
Qed.
Lemma FI_sep : forall f l i fr, FI f l (i :: fr) -> ~ In i l /\ ~ In i fr /\ (forall j, In j fr -> ~ In j l) /\ NoDup l.
Proof.
  intros f l i fr I. pose proof (F_nd _ _ _ I) as ND. apply NoDup_mid in ND as [ND NI].
  split; [intros K; apply NI; apply in_or_app; auto|]. split; [intros K; apply NI; apply in_or_app; auto|]. split.
  - intros j Hj Hl. clear - ND Hj Hl. induction l as [|x l IH]; [contradiction|]. inversion ND; subst. destruct Hl as [->|Hl]; auto. apply H1; apply in_or_app; auto.
  - clear - ND. induction l as [|x l IH]; constructor; inversion ND; subst; auto. intros K; apply H1; apply in_or_app; auto.
Qed.

Lemma back_ok : forall f l i fr x, FI f l (i :: fr) -> exists f', f_back f x = Some (f', i) /\ FI f' (l ++ [i]) fr /\ f_n f' = f_n f /\ f_dat f' = zupd (f_dat f) i (Some x).
Proof.
  intros f l i fr x I. destruct (FI_sep _ _ _ _ I) as (N1 & N2 & N3 & NDl). unfold f_back. rewrite (free_cases _ _ _ I). rewrite (F_free _ _ _ I). cbn [hd]. cbv zeta.
  eexists. split; [reflexivity|]. split; [|split; reflexivity].
  assert (HL : (f_last f =? -1) = match l with [] => true | _ => false end).
  { rewrite (F_last _ _ _ I). destruct l as [|k l]; auto. eapply FI_nn; eauto. apply in_or_app; left. apply last_in. discriminate. }
  assert (HF : (f_first f =? -1) = match l with [] => true | _ => false end).
  { rewrite (F_first _ _ _ I). destruct l as [|k l]; auto. eapply FI_nn; eauto. apply in_or_app; left. left; auto. }
  assert (LI : l <> [] -> last l (-1) <> i) by (intros Hl E; apply N1; rewrite <- E; apply last_in; auto).
  rewrite HL, HF, (F_last _ _ _ I), (F_first _ _ _ I). apply (insert_FI f l [] i fr x); rewrite ?app_nil_r; auto.
  - intros j Hj. assert (j <> i) by (intros ->; contradiction). destruct l; [contradiction|]. rewrite !zupd_ne by auto. auto.
  - intros j [].
  - intros j Hj Hne. assert (j <> i) by (intros ->; contradiction). destruct l; [contradiction|]. rewrite !zupd_ne by auto. auto.
  - intros Hl. destruct l; [contradiction|]. apply zupd_eq.
  - intros j [].
  - intros K; contradiction.
  - cbn [hd]. destruct l; [apply zupd_eq|]. rewrite zupd_ne by (intros E; apply LI; [discriminate|auto]). apply zupd_eq.
  - destruct l; [apply zupd_eq|]. apply zupd_eq.
  - intros j Hj. assert (j <> i) by (intros ->; contradiction). destruct l; [apply zupd_ne; auto|]. rewrite !zupd_ne; auto.
    intros E. apply (N3 j Hj). rewrite E. apply last_in. discriminate.
  - destruct l; auto.
Qed.
Lemma front_ok : forall f l i fr x, FI f l (i :: fr) -> exists f', f_front f x = Some (f', i) /\ FI f' (i :: l) fr /\ f_n f' = f_n f /\ f_dat f' = zupd (f_dat f) i (Some x).
Proof.
  intros f l i fr x I. destruct (FI_sep _ _ _ _ I) as (N1 & N2 & N3 & NDl). unfold f_front. rewrite (free_cases _ _ _ I). rewrite (F_free _ _ _ I). cbn [hd]. cbv zeta.
  eexists. split; [reflexivity|]. split; [|split; reflexivity].
  assert (HL : (f_last f =? -1) = match l with [] => true | _ => false end).
  { rewrite (F_last _ _ _ I). destruct l as [|k l]; auto. eapply FI_nn; eauto. apply in_or_app; left. apply last_in. discriminate. }
  assert (HF : (f_first f =? -1) = match l with [] => true | _ => false end).
  { rewrite (F_first _ _ _ I). destruct l as [|k l]; auto. eapply FI_nn; eauto. apply in_or_app; left. left; auto. }
  assert (LI : forall k m, l = k :: m -> k <> i) by (intros k m -> E; apply N1; left; auto).
  rewrite HL, HF, (F_last _ _ _ I), (F_first _ _ _ I). apply (insert_FI f [] l i fr x); auto.
  - intros j [].
  - intros j Hj. assert (j <> i) by (intros ->; contradiction). destruct l; [contradiction|]. rewrite !zupd_ne by auto. auto.
  - intros j [].
  - intros K; contradiction.
  - intros j Hj Hne. assert (j <> i) by (intros ->; contradiction). destruct l; [contradiction|]. rewrite !zupd_ne by auto. auto.
  - intros Hl. destruct l; [contradiction|]. apply zupd_eq.
  - destruct l; apply zupd_eq.
  - cbn [last]. destruct l as [|k m]; [apply zupd_eq|]. cbn [hd]. rewrite zupd_ne by (intros E; apply (LI k m); auto). apply zupd_eq.
  - intros j Hj. assert (j <> i) by (intros ->; contradiction). destruct l; rewrite !zupd_ne; auto.
  - destruct l as [|k m]; auto. rewrite !last_cons'. reflexivity.
Qed.
Lemma emplace_ok : forall f l1 p l2 i fr x, FI f (l1 ++ p :: l2) (i :: fr) ->
  exists f', f_emplace f p x = Some (f', i) /\ FI f' (l1 ++ i :: p :: l2) fr /\ f_n f' = f_n f /\ f_dat f' = zupd (f_dat f) i (Some x).
Proof.
  intros f l1 p l2 i fr x I. destruct (FI_sep _ _ _ _ I) as (N1 & N2 & N3 & NDl). unfold f_emplace. rewrite (free_cases _ _ _ I). rewrite (F_free _ _ _ I). cbn [hd].
  assert (Hp : In p (l1 ++ p :: l2)) by (apply in_or_app; right; left; auto).
  rewrite (FI_nn f _ _ p I) by (apply in_or_app; auto). cbv zeta.
  assert (Hpi : p <> i) by (intros ->; contradiction).
  pose proof (F_link _ _ _ I) as LK. apply linked_app in LK as [_ (LK & _)].
  rewrite (zupd_ne _ i (-1) p) by auto. rewrite LK. rewrite (zupd_ne _ p i i) by auto. rewrite zupd_eq.
  eexists. split; [reflexivity|]. split; [|split; reflexivity].
  apply NoDup_mid in NDl as [NDl Np].
  assert (M1 : forall j, In j l1 -> j <> i /\ j <> p).
  { intros j Hj. split; intros ->; [apply N1; apply in_or_app; auto|apply Np; apply in_or_app; auto]. }
  assert (M2 : forall j, In j l2 -> j <> i /\ j <> p).
  { intros j Hj. split; intros ->; [apply N1; apply in_or_app; right; right; auto|apply Np; apply in_or_app; auto]. }
  assert (HL : (last l1 (-1) =? -1) = match l1 with [] => true | _ => false end).
  { destruct l1 as [|k l]; auto. eapply FI_nn; eauto. apply in_or_app; left. apply in_or_app; left. apply last_in. discriminate. }
  rewrite HL. apply (insert_FI f l1 (p :: l2) i fr x); auto; cbn [hd].
  - intros j Hj. destruct (M1 j Hj). rewrite !zupd_ne by auto. auto.
  - intros j Hj. assert (j <> i) by (destruct Hj as [<-|Hj]; [auto|apply M2; auto]).
    assert (l1 <> [] -> j <> last l1 (-1)).
    { intros Hl E. assert (In j l1) by (rewrite E; apply last_in; auto). destruct Hj as [<-|Hj]; [apply (M1 p); auto|].
      clear - NDl H0 Hj. induction l1 as [|y l IH]; [contradiction|]. inversion NDl; subst. destruct H0 as [->|H0]; auto. apply H2; apply in_or_app; auto. }
    destruct l1; rewrite !zupd_ne; auto. apply H0. discriminate.
  - intros j Hj Hne. destruct (M1 j Hj). destruct l1; [contradiction|]. rewrite !zupd_ne by auto. auto.
  - intros Hl. destruct l1; [contradiction|]. apply zupd_eq.
  - intros j Hj Hne. destruct Hj as [->|Hj]; [contradiction|]. destruct (M2 j Hj). rewrite !zupd_ne by auto. auto.
  - intros _. apply zupd_eq.
  - destruct l1 as [|k l1]; [apply zupd_eq|]. rewrite zupd_ne; [apply zupd_eq|]. intros E. destruct (M1 i) as [K _]; [|apply K; auto]. rewrite E. apply last_in. discriminate.
  - rewrite zupd_ne by auto. apply zupd_eq.
  - intros j Hj. assert (j <> i) by (intros ->; contradiction). destruct l1 as [|k l1]; rewrite !zupd_ne; auto.
    intros E. apply (N3 j Hj). rewrite E. apply in_or_app; left. apply last_in. discriminate.
  - rewrite (F_first _ _ _ I), hd_app. cbn [hd]. destruct l1 as [|k l1]; cbn [hd]; [rewrite Z.eqb_refl; auto|].
    destruct (Z.eqb_spec k p) as [->|]; [exfalso; apply (M1 p); auto; left; auto|]. cbn [orb]. rewrite (FI_nn f _ _ k I); auto. apply in_or_app; left; left; auto.
  - rewrite (F_last _ _ _ I). rewrite last_app2 by discriminate. rewrite !last_cons'. reflexivity.
Qed.

Lemma clear_ok : forall l f fr fuel, FI f l fr -> (length l < fuel)%nat -> exists f' fr', f_clear_loop fuel f (hd (-1) l) = Some f' /\ FI f' [] fr' /\ f_n f' = f_n f.
Proof.
  induction l as [|i l IH]; intros f fr fuel I HF; (destruct fuel as [|fuel]; [simpl in HF; lia|]); cbn [f_clear_loop hd].
  - exists f, fr. split; auto.
  - rewrite (FI_nn f _ _ i I) by (left; auto). unfold f_incr. rewrite (FI_nn f _ _ i I) by (left; auto).
    pose proof (F_link _ _ _ I) as LK. cbn [linked] in LK. destruct LK as (_ & LK & _). rewrite LK.
    destruct (erase_FI f [] i l fr I) as (f1 & -> & I1 & En & _). cbn [app] in I1.
    destruct (IH f1 (i :: fr) fuel I1 ltac:(simpl in HF; lia)) as (f2 & fr2 & E & I2 & En2). exists f2, fr2. rewrite E. split; auto. split; auto. congruence.
Qed.

(* Contents under a change of one datum. *)
Lemma cells_ext : forall f f' l, (forall j, In j l -> f_dat f' j = f_dat f j) -> cells f' l = cells f l.
Proof. induction l as [|i l IH]; intros H; auto. unfold cells in *. cbn [flat_map]. rewrite IH by (intros; apply H; right; auto). unfold cell. rewrite H by (left; auto). auto. Qed.
Lemma cells_app : forall f l m, cells f (l ++ m) = cells f l ++ cells f m.
Proof. intros. unfold cells. apply flat_map_app. Qed.
Lemma cells_cons : forall f i l x, f_dat f i = Some x -> cells f (i :: l) = (i, x) :: cells f l.
Proof. intros. unfold cells. cbn [flat_map]. unfold cell at 1. rewrite H. auto. Qed.
Lemma insert_before_mid : forall C1 c C2 e, ~ In (fst c) (map fst C1) -> insert_before (fst c) e (C1 ++ c :: C2) = C1 ++ e :: c :: C2.
Proof.
  induction C1 as [|d C1 IH]; intros c C2 e H; simpl; [rewrite Z.eqb_refl; auto|]. simpl in H. destruct (Z.eqb_spec (fst d) (fst c)); [tauto|]. rewrite IH; auto.
Qed.
Lemma removed_mid : forall C1 c C2, ~ In (fst c) (map fst (C1 ++ C2)) -> removed (fst c) (C1 ++ c :: C2) = C1 ++ C2.
Proof.
  intros C1 c C2 H. unfold removed. assert (G : forall D : list (Z * A), ~ In (fst c) (map fst D) -> filter (fun d => negb (fst d =? fst c)) D = D).
  { induction D as [|d D IH]; intros K; auto. simpl in *. destruct (Z.eqb_spec (fst d) (fst c)); [tauto|]. simpl. rewrite IH; auto. }
  rewrite filter_app. cbn [filter]. rewrite Z.eqb_refl. cbn [negb]. rewrite map_app, in_app_iff in H. rewrite !G; tauto.
Qed.
Lemma following_mid : forall C1 c C2, ~ In (fst c) (map fst C1) -> following (fst c) (C1 ++ c :: C2) = hd (-1) (map fst C2).
Proof.
  induction C1 as [|d C1 IH]; intros c C2 H; simpl; [rewrite Z.eqb_refl; destruct C2; auto|]. simpl in H. destruct (Z.eqb_spec (fst d) (fst c)); [tauto|]. apply IH; auto.
Qed.

Lemma step_ok : forall f l fr o, FI f l fr -> 0 < f_n f -> legal (cells f l) o ->
  match f_step f o with
  | Some (f', h) => exists l' fr', FI f' l' fr' /\ f_n f' = f_n f /\ after (f_n f) (cells f l) o (cells f' l') h
  | None => refused (f_n f) (cells f l) o end.
Proof.
  intros f l fr o I HN HL. pose proof (FI_len f l fr I) as LEN. pose proof (cells_len f l fr I) as CL. pose proof (cells_fst f l fr I l (incl_refl l)) as CF.
  assert (FULL : fr = [] -> Z.of_nat (length (cells f l)) = f_n f) by (intros ->; simpl in LEN; lia).
  assert (FRESH : forall i fr', fr = i :: fr' -> fresh (f_n f) i (cells f l)).
  { intros i fr' ->. destruct (FI_sep _ _ _ _ I) as (N1 & _). split; [apply (F_rng _ _ _ I); apply in_or_app; right; left; auto|]. rewrite CF. split; auto. simpl in LEN. lia. }
  assert (EXT : forall i x f', f_dat f' = zupd (f_dat f) i (Some x) -> forall m, incl m l -> ~ In i l -> cells f' m = cells f m).
  { intros i x f' E m Hm Hi. apply cells_ext. intros j Hj. rewrite E. apply zupd_ne. intros ->. apply Hi, Hm; auto. }
  assert (BACK : forall x, match f_back f x with
    | Some (f', h) => exists l' fr', FI f' l' fr' /\ f_n f' = f_n f /\ fresh (f_n f) h (cells f l) /\ cells f' l' = cells f l ++ [(h, x)]
    | None => Z.of_nat (length (cells f l)) = f_n f end).
  { intros x. destruct fr as [|i fr]; [unfold f_back; rewrite (free_cases _ _ _ I); auto|].
    destruct (back_ok f l i fr x I) as (f' & -> & I' & En & ED). exists (l ++ [i]), fr. split; auto. split; auto. split; [apply (FRESH i fr); auto|].
    destruct (FI_sep _ _ _ _ I) as (N1 & _). rewrite cells_app, (EXT i x f' ED) by (auto; apply incl_refl). f_equal. apply cells_cons with (l := []). rewrite ED. apply zupd_eq. }
  assert (ERASE : forall l1 i l2, l = l1 ++ i :: l2 -> exists f' x, f_erase f i = Some (f', hd (-1) l2) /\ FI f' (l1 ++ l2) (i :: fr) /\ f_n f' = f_n f /\
     cells f' (l1 ++ l2) = cells f l1 ++ cells f l2 /\ cells f l = cells f l1 ++ (i, x) :: cells f l2 /\ ~ In i (map fst (cells f l1 ++ cells f l2)) /\
     map fst (cells f l2) = l2 /\ map fst (cells f l1) = l1).
  { intros l1 i l2 E. subst l. destruct (erase_FI f l1 i l2 fr I) as (f' & -> & I' & En & ED).
    destruct (f_dat f i) as [x|] eqn:EX; [|exfalso; apply (F_live _ _ _ I i); auto; apply in_or_app; right; left; auto].
    exists f', x. destruct (FI_sep _ _ _ _ I') as (N1 & _).
    assert (C1 : map fst (cells f l1) = l1) by (apply (cells_fst f _ fr I); intros y Hy; apply in_or_app; auto).
    assert (C2 : map fst (cells f l2) = l2) by (apply (cells_fst f _ fr I); intros y Hy; apply in_or_app; right; right; auto).
    split; auto. split; auto. split; auto. split; [|split; [|split; [|auto]]].
    - rewrite (cells_ext f f') by (intros j Hj; apply ED; intros ->; contradiction). apply cells_app.
    - rewrite cells_app. f_equal. apply cells_cons; auto.
    - rewrite map_app, C1, C2. auto. }
  destruct o as [p x|x|x|p| | |]; cbn [f_step after refused legal] in *.
  - destruct (Z.eqb_spec p (-1)) as [Ep|Np].
    + unfold f_emplace. rewrite Ep, (Z.eqb_refl (-1)). rewrite (free_cases _ _ _ I). destruct fr as [|i fr]; [apply FULL; auto|]. specialize (BACK x). 
      destruct (f_back f x) as [[f' h]|]; auto.
    + destruct HL as [HL|HL]; [contradiction|]. rewrite CF in HL. destruct fr as [|i fr]; [unfold f_emplace; rewrite (free_cases _ _ _ I); auto|].
      destruct (in_split _ _ HL) as (l1 & l2 & ->). destruct (emplace_ok f l1 p l2 i fr x I) as (f' & -> & I' & En & ED). exists (l1 ++ i :: p :: l2), fr. split; auto. split; auto.
      split; [apply (FRESH i fr); auto|]. destruct (FI_sep _ _ _ _ I) as (N1 & _ & _ & NDl).
      destruct (f_dat f p) as [y|] eqn:EY; [|exfalso; apply (F_live _ _ _ I p); auto].
      assert (C1 : map fst (cells f l1) = l1) by (apply (cells_fst f _ _ I); intros z Hz; apply in_or_app; auto).
      assert (EI : f_dat f' i = Some x) by (rewrite ED; apply zupd_eq).
      rewrite !cells_app, (cells_cons f' i _ x) by auto. rewrite !(EXT i x f' ED) by (auto; intros z Hz; apply in_or_app; auto).
      rewrite (cells_cons f p l2 y) by auto. symmetry. apply (insert_before_mid (cells f l1) (p, y)). cbn [fst]. rewrite C1. apply NoDup_mid in NDl as [_ K]. intros Q; apply K; apply in_or_app; auto.
  - destruct fr as [|i fr]; [unfold f_front; rewrite (free_cases _ _ _ I); auto|].
    destruct (front_ok f l i fr x I) as (f' & -> & I' & En & ED). exists (i :: l), fr. split; auto. split; auto. split; [apply (FRESH i fr); auto|].
    destruct (FI_sep _ _ _ _ I) as (N1 & _). rewrite (cells_cons f' i _ x) by (rewrite ED; apply zupd_eq). rewrite (EXT i x f' ED) by (auto; apply incl_refl). auto.
  - specialize (BACK x). destruct (f_back f x) as [[f' h]|]; auto.
  - rewrite CF in HL. destruct (in_split _ _ HL) as (l1 & l2 & E). destruct (ERASE l1 p l2 E) as (f' & x & -> & I' & En & C' & CC & NI & C2 & C1).
    exists (l1 ++ l2), (p :: fr). split; auto. split; auto. rewrite C', CC. rewrite map_app, in_app_iff in NI. split.
    + change p with (fst (p, x)) at 1. rewrite following_mid by (cbn [fst]; tauto). rewrite C2. auto.
    + symmetry. apply (removed_mid _ (p, x)). cbn [fst]. rewrite map_app, in_app_iff. tauto.
  - unfold f_pop_back. rewrite (F_last _ _ _ I). destruct l as [|k l0] eqn:El; [reflexivity|]. rewrite <- El in *.
    rewrite (FI_nn f _ _ (last l (-1)) I) by (apply in_or_app; left; apply last_in; rewrite El; discriminate).
    assert (Hl : l <> []) by (rewrite El; discriminate). destruct (exists_last Hl) as (m & z & Em). rewrite Em, last_last. 
    destruct (ERASE m z [] Em) as (f' & x & -> & I' & En & C' & CC & _). rewrite <- Em. rewrite app_nil_r in *. exists m, (z :: fr). split; auto. split; auto. rewrite CC, C'. cbn [cells flat_map]. rewrite app_nil_r. split; [destruct (cells f m); discriminate|].
    rewrite removelast_last. auto.
  - unfold f_pop_front. rewrite (F_first _ _ _ I). destruct l as [|k l0] eqn:El; [reflexivity|]. cbn [hd]. rewrite (FI_nn f _ _ k I) by (left; auto).
    destruct (ERASE [] k l0 eq_refl) as (f' & x & -> & I' & En & C' & CC & _). cbn [app] in *. exists l0, (k :: fr). split; auto. split; auto. rewrite CC, C'. split; [discriminate|auto].
  - unfold f_clear, f_begin. rewrite (F_first _ _ _ I). destruct (clear_ok l f fr (S (Z.to_nat (f_n f))) I ltac:(lia)) as (f' & fr' & -> & I' & En). cbn [option_map].
    exists [], fr'. split; auto.
Qed.

Lemma reach_FI : forall n f, reach n f -> 0 < n /\ f_n f = n /\ exists l fr, FI f l fr.
Proof.
  induction 1 as [f H|f C o f' h H IH HC HL HS].
  - destruct (init_FI n f H) as (H1 & H2 & fr & I). eauto.
  - destruct IH as (H1 & H2 & l & fr & I). rewrite (contents_ok f l fr I) in HC. injection HC as <-.
    pose proof (step_ok f l fr o I ltac:(lia) HL) as K. rewrite HS in K. destruct K as (l' & fr' & I' & En & _). split; auto. split; [congruence|]. eauto.
Qed.

(** The contents of a list, as a loop over its iterators shows them, change with every call as the call says;
    a call is refused exactly when the list is full (insertions) or empty (pops). *)
Theorem C19_list : forall n f C o, reach n f -> f_contents f = Some C -> legal C o ->
  match f_step f o with
  | Some (f', h) => exists C', f_contents f' = Some C' /\ after n C o C' h
  | None => refused n C o end.
Proof.
  intros n f C o H HC HL. destruct (reach_FI n f H) as (Hn & En & l & fr & I). rewrite (contents_ok f l fr I) in HC. injection HC as <-.
  pose proof (step_ok f l fr o I ltac:(lia) HL) as K. rewrite En in K. destruct (f_step f o) as [[f' h]|]; auto.
  destruct K as (l' & fr' & I' & En' & K). exists (cells f' l'). split; auto. apply (contents_ok f' l' fr' I').
Qed.

(** Every reachable list can be walked, has at most its capacity of elements, knows their number, and its
    iterators denote exactly its elements. *)
Theorem C19_capacity : forall n f, reach n f -> exists C, f_contents f = Some C /\ NoDup (map fst C) /\
  Z.of_nat (length C) <= n /\ f_size f = Z.of_nat (length C) /\ forall h x, f_deref f h = Some x <-> In (h, x) C.
Proof.
  intros n f H. destruct (reach_FI n f H) as (Hn & En & l & fr & I). exists (cells f l). split; [apply (contents_ok f l fr I)|].
  pose proof (FI_len f l fr I). pose proof (cells_len f l fr I) as CL. split.
  - rewrite (cells_fst f l fr I) by apply incl_refl. pose proof (F_nd _ _ _ I) as ND. clear - ND. induction l; constructor; inversion ND; subst; auto. intros K; apply H1; apply in_or_app; auto.
  - split; [lia|]. split; [rewrite CL; apply I|]. intros h x. unfold cells. rewrite in_flat_map. unfold f_deref. split.
    + intros K. destruct (h =? -1); [discriminate|]. exists h. split; [|unfold cell; rewrite K; left; auto].
      destruct (in_dec Z.eq_dec h l) as [|NI]; auto. rewrite (F_dead _ _ _ I h NI) in K. discriminate.
    + intros (i & Hi & K). unfold cell in K. destruct (f_dat f i) as [y|] eqn:E; [|contradiction]. destruct K as [K|[]]. injection K as -> ->.
      rewrite (FI_nn f _ _ h I) by (apply in_or_app; auto). auto.
Qed.

(* The call does not remove the element of iterator h. *)
Definition spares (h : Z) C (o : fop A) : Prop :=
  match o with
  | FErase pos => pos <> h
  | FPopBack => last (map fst C) (-1) <> h
  | FPopFront => hd (-1) (map fst C) <> h
  | FClear => False
  | _ => True end.
Inductive leads (h : Z) : fl A -> fl A -> Prop :=
| leads_refl : forall f, leads h f f
| leads_step : forall f C o f' r f2, f_contents f = Some C -> legal C o -> spares h C o -> f_step f o = Some (f', r) -> leads h f' f2 -> leads h f f2.
Lemma in_insert : forall pos e C c, In c C -> In c (insert_before pos e C).
Proof. induction C as [|d C IH]; intros c H; [contradiction|]. simpl. destruct (fst d =? pos); simpl in *; [tauto|]. destruct H; auto. Qed.
(** An iterator keeps denoting its element until that element is erased, whatever else is done to the list. *)
Theorem C19_stable : forall n f f2 h x, reach n f -> f_deref f h = Some x -> leads h f f2 -> f_deref f2 h = Some x.
Proof.
  intros n f f2 h x HR HD HL. induction HL as [f|f C o f' r f2 HC HL HS HT _ IH]; auto. apply IH; [eapply reach_step; eauto|].
  pose proof (C19_list n f C o HR HC HL) as K. rewrite HT in K. destruct K as (C' & HC' & HA).
  destruct (C19_capacity n f HR) as (C0 & E0 & ND & _ & _ & D0). rewrite HC in E0. injection E0 as <-. apply D0 in HD.
  destruct (C19_capacity n f' (reach_step n f C o f' r HR HC HL HT)) as (C1 & E1 & _ & _ & _ & D1). rewrite HC' in E1. injection E1 as <-. apply D1.
  destruct o as [p y|y|y|p| | |]; cbn [after spares] in *.
  - destruct HA as [_ ->]. destruct (p =? -1); [apply in_or_app; auto|apply in_insert; auto].
  - destruct HA as [_ ->]. right; auto.
  - destruct HA as [_ ->]. apply in_or_app; auto.
  - destruct HA as [_ ->]. unfold removed. apply filter_In. split; auto. cbn [fst]. destruct (Z.eqb_spec h p); [congruence|auto].
  - destruct HA as [Hne ->]. destruct (exists_last Hne) as (m & c & ->). rewrite removelast_last. apply in_app_iff in HD as [HD|[HD|[]]]; auto.
    subst c. exfalso. apply HS. rewrite map_app. cbn [map fst]. apply last_last.
  - destruct HA as [Hne ->]. destruct C as [|c C]; [contradiction|]. destruct HD as [HD|HD]; auto. subst c. exfalso. apply HS. reflexivity.
  - contradiction.
Qed.
End SPEC.
Print Assumptions C19_list.
Print Assumptions C19_capacity.
Print Assumptions C19_stable.

(* Concrete cases. *)
Fixpoint ex_run (f : fl Z) (ops : list (fop Z)) : option (fl Z) :=
  match ops with [] => Some f | o :: r => match f_step f o with Some (f', _) => ex_run f' r | None => None end end.
Definition ex_list (ops : list (fop Z)) : option (list (Z * Z)) :=
  match f_init 4 with Some f => match ex_run f ops with Some f' => f_contents f' | None => None end | None => None end.
Example C19_list_ex : ex_list [FBack 10; FBack 20; FFront 5; FErase 1; FEmplace 0 7; FBack 30] = Some [(2, 5); (1, 7); (0, 10); (3, 30)] /\
  ex_list [FBack 10; FBack 20; FFront 5; FErase 1; FEmplace 0 7; FBack 30; FBack 31] = None.
Proof. split; vm_compute; reflexivity. Qed.
Example C19_capacity_ex : ex_list [FBack 1; FBack 2; FBack 3; FBack 4; FClear; FFront 9] = Some [(3, 9)].
Proof. vm_compute. reflexivity. Qed.
Example C19_stable_ex : match f_init 4 with Some f => match ex_run f [FBack 10; FBack 20; FFront 5; FPopBack; FEmplace 0 7; FPopFront] with
  Some f' => (f_deref f' 0, f_contents f') | None => (None, None) end | None => (None, None) end = (Some 10, Some [(1, 7); (0, 10)]).
Proof. vm_compute. reflexivity. Qed.
