(** What the checkpoints hold: restoring one gives certain bytes, and cleaning up does not change which. *)
From Coq Require Import List NArith Arith Bool Lia Sorting.Sorted.
From Verif Require Import LayoutModel LayoutProofs ArchDataModel ArchDataProofs ArchDataProps StorageModel StorageProofs StorageArch CkptModel CkptTree CkptOps.
Import ListNotations.
Open Scope N_scope.

(** [D cs l fs]: the ArchDatas [l] have the shapes [cs] and hold the bytes [fs]. *)
Inductive D : list cfg -> list adata -> list (N -> N) -> Prop :=
  | D0 : D [] [] []
  | D1 : forall c a f cs l fs, AI c a f -> D cs l fs -> D (c :: cs) (a :: l) (f :: fs).
(** Where the bytes differ from [gs] the lines are dirty. *)
Inductive DT : list cfg -> list adata -> list (N -> N) -> list (N -> N) -> Prop :=
  | DT0 : DT [] [] [] []
  | DT1 : forall c a f g cs l fs gs, tracked c a f g -> DT cs l fs gs -> DT (c :: cs) (a :: l) (f :: fs) (g :: gs).
Definition feq (fs gs : list (N -> N)) : Prop := Forall2 (fun f g : N -> N => forall b, f b = g b) fs gs.
Fixpoint applyd (all : bool) (cs : list cfg) (segs : list (list rec)) (fs : list (N -> N)) : list (N -> N) :=
  match cs, segs, fs with
  | c :: cs', r :: segs', f :: fs' => put_recs c (if all then cfill c else f) r :: applyd all cs' segs' fs'
  | _, _, _ => []
  end.
(** The number of lines the ArchDatas can have, plus one for each ArchData. *)
Definition capacity (cs : list cfg) : N := fold_right (fun c n => c_total c / cL c + 1 + n) 0 cs.

Lemma feq_refl : forall fs, feq fs fs. Proof. induction fs; constructor; auto. Qed.
Lemma feq_sym : forall fs gs, feq fs gs -> feq gs fs. Proof. intros fs gs H. induction H; constructor; auto. Qed.
Lemma feq_trans : forall fs gs hs, feq fs gs -> feq gs hs -> feq fs hs.
Proof.
  intros fs gs hs H. revert hs. induction H as [|f g fs gs H1 H2 IH]; intros hs K; inversion K as [|? h ? hs' K1 K2]; subst; constructor.
  - intros b. rewrite H1. apply K1. - apply IH. exact K2.
Qed.
Lemma D_ext : forall cs l fs gs, D cs l fs -> feq fs gs -> D cs l gs.
Proof.
  intros cs l fs gs H. revert gs. induction H as [|c a f cs l fs H1 H2 IH]; intros gs K; inversion K as [|? g ? gs' K1 K2]; subst; constructor.
  - eapply AI_ext; [exact H1|exact K1]. - apply IH. exact K2.
Qed.
Lemma DT_refl : forall cs l fs, D cs l fs -> DT cs l fs fs.
Proof. intros cs l fs H. induction H; constructor; auto. intros b Hb. exfalso. apply Hb. reflexivity. Qed.
Lemma applyd_ext : forall all cs segs fs gs, feq fs gs -> feq (applyd all cs segs fs) (applyd all cs segs gs).
Proof.
  induction cs as [|c cs IH]; intros segs fs gs H; [constructor|]. destruct segs as [|r segs]; [constructor|]. destruct H as [|f g fs gs H1 H2]; [constructor|].
  cbn [applyd]. constructor; [|apply IH; exact H2]. intros b. apply put_recs_ext. destruct all; auto.
Qed.
Lemma applyd_all : forall cs segs fs gs, length fs = length gs -> applyd true cs segs fs = applyd true cs segs gs.
Proof.
  induction cs as [|c cs IH]; intros segs fs gs H; [reflexivity|]. destruct segs as [|r segs]; [reflexivity|].
  destruct fs as [|f fs], gs as [|g gs]; try discriminate; [reflexivity|]. cbn [applyd]. f_equal. apply IH. injection H as H. exact H.
Qed.
Lemma D_len : forall cs l fs, D cs l fs -> length fs = length cs /\ length l = length cs.
Proof. intros cs l fs H. induction H; cbn [length]; [auto|]. destruct IHD. split; congruence. Qed.

Lemma bounded_len : forall (l : list N) m, NoDup l -> (forall i, In i l -> i < m) -> N.of_nat (length l) <= m.
Proof.
  intros l m ND H. assert (LE : (length l <= length (map N.of_nat (seq 0 (N.to_nat m))))%nat).
  { apply NoDup_incl_length; [exact ND|]. intros i Hi. apply in_map_iff. exists (N.to_nat i). split; [apply N2Nat.id|]. apply in_seq. specialize (H i Hi). lia. }
  rewrite map_length, seq_length in LE. lia.
Qed.
Lemma saved_len : forall sh c a f all, wfc sh c -> AI c a f -> N.of_nat (length (saved all (a_lines a))) <= c_total c / cL c.
Proof.
  intros sh c a f all Wf [_ ND RG]. rewrite <- (map_length fst). apply bounded_len; [apply saved_nodup; exact ND|].
  intros i Hi. apply saved_key in Hi. specialize (RG i Hi). pose proof (cLpos c) as LP. pose proof (wf_M sh c Wf) as HM.
  assert (E : c_total c = cL c * (c_total c / cL c)). { pose proof (N.div_mod (c_total c) (cL c)) as DM. unfold cL in *. rewrite HM in DM. lia. }
  destruct (N.lt_ge_cases i (c_total c / cL c)) as [B|B]; [exact B|]. exfalso.
  pose proof (N.mul_le_mono_l _ _ (cL c) B) as M. rewrite <- E in M. rewrite N.mul_comm in RG. lia.
Qed.

Section Fixed.
  Variables (sh : overshift) (cs : list cfg).
  Hypothesis Wf : Forall (wfc sh) cs.
  Hypothesis Cap : capacity cs < 2 ^ 32.

  (** The records a checkpoint holds. *)
  Definition held (s : vstore) (segs : list (list rec)) : Prop :=
    vW s segs [] /\ Forall2 (fun c r => Forall (rec_ok c) r) cs segs /\ v_lim segs.

  Lemma save_ok_gen : forall all cs0 l fs s segs, Forall (wfc sh) cs0 -> D cs0 l fs -> vW s segs [] ->
    exists l' s' new, save_dats vector_storage all s l = Done (l', s') /\ vW s' (segs ++ new) [] /\ D cs0 l' fs /\
      Forall2 (fun c r => Forall (rec_ok c) r) cs0 new /\ N.of_nat (length (vflat new)) <= capacity cs0 /\
      (all = true -> feq (applyd true cs0 new fs) fs) /\ (forall gs, DT cs0 l fs gs -> feq (applyd all cs0 new gs) fs).
  Proof.
    intros all cs0 l fs s segs W H. revert s segs. induction H as [|c a f cs0 l fs HA HD IH]; intros s segs HW; cbn [save_dats].
    - exists [], s, []. rewrite app_nil_r. split; [reflexivity|]. split; [exact HW|]. split; [exact D0|]. split; [constructor|].
      split; [apply N.le_refl|]. split; intros; constructor.
    - inversion W as [|? ? W1 W2]; subst.
      destruct (ad_save_ok sh c W1 vector_storage v_lim vW vR vector_laws all a f s segs HA HW) as [a' [s1 [E1 [E2 [E3 [E4 [E5 E6]]]]]]].
      rewrite E1. cbn [obind]. destruct (IH W2 s1 _ E2) as [l' [s2 [new [F1 [F2 [F3 [F4 [F5 [F6 F7]]]]]]]]]. rewrite F1. cbn [obind].
      exists (a' :: l'), s2, (saved all (a_lines a) :: new). split; [reflexivity|]. split; [rewrite <- app_assoc in F2; exact F2|].
      split; [constructor; assumption|]. split; [constructor; assumption|]. split.
      { change (saved all (a_lines a) :: new) with ([saved all (a_lines a)] ++ new). rewrite vflat_app, vflat_one, !app_length, map_length. cbn [length capacity fold_right].
        pose proof (saved_len sh c a f all W1 HA) as SL. fold (capacity cs0). lia. }
      split.
      + intros Q. subst all. cbn [applyd]. constructor; [apply E5; reflexivity|]. apply F6. reflexivity.
      + intros gs T. inversion T as [|? ? ? g ? ? ? gs' T1 T2]; subst. cbn [applyd]. constructor; [|apply F7; exact T2].
        destruct all; [apply E5; reflexivity|apply E6; exact T1].
  Qed.
  Lemma save_ok : forall all l fs, D cs l fs -> exists l' s segs, save_dats vector_storage all v_new l = Done (l', s) /\ D cs l' fs /\ held s segs /\
    (all = true -> feq (applyd true cs segs fs) fs) /\ (forall gs, DT cs l fs gs -> feq (applyd all cs segs gs) fs).
  Proof.
    intros all l fs H. destruct (save_ok_gen all cs l fs v_new [] Wf H) as [l' [s [new [E1 [E2 [E3 [E4 [E5 [E6 E7]]]]]]]]]; [split; reflexivity|].
    exists l', s, new. split; [exact E1|]. split; [exact E3|]. split; [|auto]. split; [exact E2|]. split; [exact E4|].
    unfold v_lim. clear - E5 Cap. change (2 ^ 32) with 4294967296 in *. lia.
  Qed.

  Lemma restore_ok_gen : forall all cs0 l fs segs s alls rest fuel, Forall (wfc sh) cs0 -> D cs0 l fs -> vR s alls (segs ++ rest) ->
    Forall2 (fun c r => Forall (rec_ok c) r) cs0 segs -> (forall x, In x segs -> (length x < fuel)%nat) ->
    exists l' s', restore_dats vector_storage sh fuel all s l = Done (l', s') /\ vR s' alls rest /\ D cs0 l' (applyd all cs0 segs fs).
  Proof.
    intros all cs0 l fs segs s alls rest fuel W H. revert segs s. induction H as [|c a f cs0 l fs HA HD IH]; intros segs s HR HO HF;
      inversion HO as [|? r ? segs' O1 O2]; subst; cbn [restore_dats].
    - exists [], s. split; [reflexivity|]. split; [exact HR|constructor].
    - inversion W as [|? ? W1 W2]; subst. cbn [app] in HR.
      assert (E : exists a' s', (if all then ad_restore_all vector_storage sh fuel s a else ad_restore vector_storage sh fuel s a) = Done (a', s') /\
        vR s' alls (segs' ++ rest) /\ AI c a' (put_recs c (if all then cfill c else f) r)).
      { assert (FL : (length r < fuel)%nat) by (apply HF; left; reflexivity). destruct all.
        - apply (ad_restore_all_ok sh c W1 vector_storage v_lim vW vR vector_laws r fuel s alls _ a f HR O1 HA FL).
        - apply (ad_restore_ok sh c W1 vector_storage v_lim vW vR vector_laws r fuel s alls _ a f HR O1 HA FL). }
      destruct E as [a' [s1 [E1 [E2 E3]]]]. rewrite E1. cbn [obind].
      destruct (IH W2 segs' s1 E2 O2) as [l' [s2 [F1 [F2 F3]]]]; [intros; apply HF; right; assumption|]. rewrite F1. cbn [obind].
      exists (a' :: l'), s2. split; [reflexivity|]. split; [exact F2|]. cbn [applyd]. constructor; assumption.
  Qed.
  Lemma load_state_ok : forall n segs l fs, held (n_data n) segs -> D cs l fs ->
    exists l', load_state sh n l = Done l' /\ D cs l' (applyd (n_snap n) cs segs fs).
  Proof.
    intros n segs l fs [H1 [H2 H3]] HD. unfold load_state.
    pose proof (w_prepare _ _ _ _ vector_laws (n_data n) segs H1 H3) as R0. cbn [vector_storage st_prepare] in R0.
    pose proof (r_good _ _ _ _ vector_laws _ _ _ R0) as G. cbn [vector_storage st_good] in G. rewrite G.
    rewrite <- (app_nil_r segs) in R0 at 2.
    destruct (restore_ok_gen (n_snap n) cs l fs segs (v_prepare (n_data n)) segs [] (S (length (v_data (v_prepare (n_data n))))) Wf HD R0 H2)
      as [l' [s' [E1 [E2 E3]]]].
    { intros x Hx. cbn [v_prepare v_data]. destruct H1 as [-> _]. cbn [map]. rewrite app_nil_r. clear - Hx. induction segs as [|y segs IH]; [destruct Hx|].
      change (y :: segs) with ([y] ++ segs). rewrite vflat_app, vflat_one, !app_length, map_length. cbn [length]. destruct Hx as [->|Hx]; [lia|]. specialize (IH Hx). lia. }
    rewrite E1. cbn [obind]. eauto.
  Qed.

  (** [restores l x fs]: loading [x] would give the bytes [fs]. *)
  Inductive restores (l : nodes) : N -> list (N -> N) -> Prop :=
    | rs_snap : forall x n segs gs fs, get x l = Some n -> n_snap n = true -> held (n_data n) segs -> length gs = length cs ->
        feq (applyd true cs segs gs) fs -> restores l x fs
    | rs_delta : forall x n p segs gs fs, get x l = Some n -> n_snap n = false -> n_prev n = Some p -> restores l p gs -> held (n_data n) segs ->
        feq (applyd false cs segs gs) fs -> restores l x fs.
  Lemma load_chain_app : forall l c1 c2 d, load_chain sh l (c1 ++ c2) d = obind (load_chain sh l c1 d) (load_chain sh l c2).
  Proof.
    induction c1 as [|x c1 IH]; intros c2 d; cbn [load_chain app obind]; [reflexivity|]. destruct (deref x l); cbn [obind]; try reflexivity.
    destruct (load_state sh a d); cbn [obind]; try reflexivity. apply IH.
  Qed.
  Lemma load_ok : forall l h c nx, TI l h c nx -> forall x fs, restores l x fs -> forall fuel, (below x l < fuel)%nat ->
    exists ch, restore_chain fuel l x = Done ch /\ forall d gs, D cs d gs -> exists d', load_chain sh l ch d = Done d' /\ D cs d' fs.
  Proof.
    intros l h c nx T x fs H. induction H as [x n segs gs0 fs G SN HL LG FE|x n p segs gs0 fs G SN P RS IH HL FE]; intros fuel HF;
      (destruct fuel as [|fuel]; [lia|]); cbn [restore_chain]; unfold deref; rewrite G; cbn [obind]; rewrite SN.
    - exists [x]. split; [reflexivity|]. intros d gs HD. cbn [load_chain]. unfold deref. rewrite G. cbn [obind].
      destruct (load_state_ok n segs d gs HL HD) as [d' [E1 E2]]. rewrite E1. cbn [obind]. exists d'. split; [reflexivity|].
      rewrite SN in E2. rewrite (applyd_all cs segs gs gs0) in E2 by (rewrite LG; apply (D_len _ _ _ HD)). eapply D_ext; [exact E2|exact FE].
    - rewrite P. assert (XH : x <> h). { intros ->. destruct (ti_head _ _ _ _ T) as [hn [H1 [H2 _]]]. congruence. }
      destruct (ti_prev _ _ _ _ T x n G XH) as [q [qn [Q1 [Q2 [Q3 _]]]]]. assert (q = p) by congruence. subst q.
      pose proof (below_lt p x l Q3 (get_key _ _ _ Q2)) as BL. destruct (IH fuel) as [ch [C1 C2]]; [lia|].
      rewrite C1. cbn [obind]. exists (ch ++ [x]). split; [reflexivity|]. intros d gs HD. rewrite load_chain_app. destruct (C2 d gs HD) as [d1 [D2 D3]].
      rewrite D2. cbn [obind load_chain]. unfold deref. rewrite G. cbn [obind]. destruct (load_state_ok n segs d1 gs0 HL D3) as [d' [E1 E2]].
      rewrite E1. cbn [obind]. exists d'. split; [reflexivity|]. rewrite SN in E2. eapply D_ext; [exact E2|exact FE].
  Qed.
  (** Every checkpoint restores to something. *)
  Definition allheld (l : nodes) : Prop := forall x n, get x l = Some n -> exists segs, held (n_data n) segs.
  Lemma restores_some : forall l h c nx, TI l h c nx -> allheld l -> forall m x n, (below x l < m)%nat -> get x l = Some n -> exists fs, restores l x fs.
  Proof.
    intros l h c nx T AH. induction m as [|m IH]; intros x n HF G; [lia|]. destruct (AH x n G) as [segs HS]. destruct (n_snap n) eqn:ES.
    - exists (applyd true cs segs (map cfill cs)). eapply rs_snap; eauto; [apply map_length|apply feq_refl].
    - assert (XH : x <> h). { intros ->. destruct (ti_head _ _ _ _ T) as [hn [H1 [_ H2]]]. congruence. }
      destruct (ti_prev _ _ _ _ T x n G XH) as [p [pn [P1 [P2 [P3 _]]]]]. pose proof (below_lt p x l P3 (get_key _ _ _ P2)) as BL.
      destruct (IH p pn) as [gs Hg]; [lia|exact P2|]. exists (applyd false cs segs gs). eapply rs_delta; eauto. apply feq_refl.
  Qed.

  (** Erasing what a checkpoint does not need. *)
  Lemma restores_erase : forall l l' h c nx x n p, TI l h c nx -> get x l = Some n -> n_prev n = Some p ->
    (forall y, get y l' = if y =? x then None else option_map (erased x p (n_nexts n) y) (get y l)) ->
    forall y fs, restores l y fs -> y <> x -> ((exists yn, get y l = Some yn /\ n_snap yn = true) \/ ~ fw l x y) -> restores l' y fs.
  Proof.
    intros l l' h c nx x n p T G P E y fs H. induction H as [y m segs gs fs Gy SN HL LG FE|y m q segs gs fs Gy SN Q RS IH HL FE]; intros YX NF.
    - apply (rs_snap l' y (erased x p (n_nexts n) y m) segs gs fs); auto. rewrite E, Gy. destruct (N.eqb_spec y x); [congruence|reflexivity].
    - destruct NF as [[yn [Y1 Y2]]|NF]; [congruence|].
      assert (YH : y <> h). { intros ->. destruct (ti_head _ _ _ _ T) as [hn [H1 [H2 _]]]. congruence. }
      destruct (ti_prev _ _ _ _ T y m Gy YH) as [q' [qn [Q1 [Q2 [Q3 [Q4 Q5]]]]]]. assert (q' = q) by congruence. subst q'.
      assert (QX : q <> x). { intros ->. apply NF. eapply fw1; eauto. }
      apply (rs_delta l' y (erased x p (n_nexts n) y m) q segs gs fs); auto.
      + rewrite E, Gy. destruct (N.eqb_spec y x); [congruence|reflexivity].
      + cbn [erased n_prev]. destruct (mem y (n_nexts n)) eqn:EM; [|exact Q]. apply mem_in in EM.
        destruct (ti_nexts _ _ _ _ T x n y G EM) as [yn [Y1 Y2]]. assert (Some x = Some q) by congruence. congruence.
      + apply IH; [exact QX|]. right. intros F. apply NF. eapply fw_snoc; eauto.
  Qed.
  Lemma restores_shr : forall h c nx l l', shr h c nx l l' -> forall y fs, restores l y fs ->
    (live_at l y \/ (y = c /\ exists yn, get y l = Some yn /\ n_snap yn = true)) -> restores l' y fs.
  Proof.
    intros h c nx l l' H. induction H as [|l l' l'' x n p T G X1 X2 P [[m [U1 U2]] U3] F E H IH]; intros y fs RS C; [exact RS|].
    assert (YX : y <> x). { intros ->. destruct C as [[yn [Y1 Y2]]|[-> _]]; congruence. }
    apply IH.
    - apply (restores_erase l l' h c nx x n p T G P E y fs RS YX). destruct C as [[yn [Y1 Y2]]|[_ C]]; [|left; exact C]. right. intros Q. destruct (U3 y Q) as [z [Z1 Z2]]. congruence.
    - destruct C as [[yn [Y1 Y2]]|[YC [yn [Y1 Y2]]]]; [left; unfold live_at|right; split; [exact YC|]]; rewrite E, Y1;
        (destruct (N.eqb_spec y x); [congruence|]); cbn [option_map]; eexists; (split; [reflexivity|]); assumption.
  Qed.
  Lemma allheld_shr : forall h c nx l l', shr h c nx l l' -> allheld l -> allheld l'.
  Proof.
    intros h c nx l l' H A y m G. destruct (shr_get _ _ _ _ _ H y m G) as [m0 [G0 [_ [_ [_ E]]]]]. rewrite E. apply (A y). exact G0.
  Qed.

  (** Changes to links away from the chain, and to flags, do not matter. *)
  Lemma restores_same : forall l l', (forall y m, get y l = Some m -> exists m', get y l' = Some m' /\ n_snap m' = n_snap m /\ n_prev m' = n_prev m /\
    n_data m' = n_data m) -> forall y fs, restores l y fs -> restores l' y fs.
  Proof.
    intros l l' E y fs H. induction H as [y m segs gs fs Gy SN HL LG FE|y m q segs gs fs Gy SN Q RS IH HL FE];
      destruct (E y m Gy) as [m' [E1 [E2 [E3 E4]]]].
    - apply (rs_snap l' y m' segs gs fs); auto; congruence.
    - apply (rs_delta l' y m' q segs gs fs); auto; congruence.
  Qed.
End Fixed.
