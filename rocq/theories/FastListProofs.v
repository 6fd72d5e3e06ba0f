(** Lemmas about the FastList model. *)
From Coq Require Import List ZArith Bool Lia Permutation.
From Verif Require Import FastListModel.
Import ListNotations.
Open Scope Z_scope.

Section P.
Context {A : Type}.
Implicit Types (f : fl A).

(* [l] is doubly linked; the first node's prev is [p], the last node's next is [q]. *)
Fixpoint linked (nx pv : Z -> Z) (p : Z) (l : list Z) (q : Z) : Prop :=
  match l with [] => True | i :: r => pv i = p /\ nx i = hd q r /\ linked nx pv i r q end.
Fixpoint chained (nx : Z -> Z) (l : list Z) : Prop :=
  match l with [] => True | i :: r => nx i = hd (-1) r /\ chained nx r end.

Record FI f (l fr : list Z) : Prop := {
  F_nd : NoDup (l ++ fr);
  F_rng : forall i, In i (l ++ fr) <-> 0 <= i < f_n f;
  F_link : linked (f_nx f) (f_pv f) (-1) l (-1);
  F_chain : chained (f_nx f) fr;
  F_first : f_first f = hd (-1) l;
  F_last : f_last f = last l (-1);
  F_free : f_free f = hd (-1) fr;
  F_live : forall i, In i l -> f_dat f i <> None;
  F_dead : forall i, ~ In i l -> f_dat f i = None;
  F_size : f_size f = Z.of_nat (length l)
}.

Lemma linked_ext : forall nx pv nx' pv' l p q, (forall i, In i l -> nx' i = nx i /\ pv' i = pv i) -> linked nx pv p l q -> linked nx' pv' p l q.
Proof.
  induction l as [|i l IH]; intros p q H K; simpl in *; auto. destruct (H i (or_introl eq_refl)) as [E1 E2]. destruct K as (K1 & K2 & K3).
  rewrite E1, E2. repeat split; auto.
Qed.
Lemma chained_ext : forall nx nx' l, (forall i, In i l -> nx' i = nx i) -> chained nx l -> chained nx' l.
Proof. induction l as [|i l IH]; intros H K; simpl in *; auto. destruct K. rewrite H by auto. auto. Qed.
Lemma hd_app : forall (l m : list Z) d, hd d (l ++ m) = hd (hd d m) l.
Proof. destruct l; auto. Qed.
Lemma last_cons' : forall (i : Z) l p, last (i :: l) p = last l i.
Proof. intros i l. revert i. induction l as [|y l IH]; intros i p; auto. change (last (y :: l) p = last (y :: l) i). rewrite (IH y p), (IH y i). reflexivity. Qed.
Lemma linked_app : forall nx pv l m p q, linked nx pv p (l ++ m) q <-> linked nx pv p l (hd q m) /\ linked nx pv (last l p) m q.
Proof.
  induction l as [|i l IH]; intros m p q; [simpl; tauto|]. cbn [app linked]. rewrite IH, hd_app, last_cons'. tauto.
Qed.
Lemma hd_in : forall (l : list Z) d, l <> [] -> In (hd d l) l.
Proof. destruct l; simpl; [contradiction|auto]. Qed.
Lemma last_in : forall (l : list Z) d, l <> [] -> In (last l d) l.
Proof. intros l d H. destruct (exists_last H) as (m & x & ->). rewrite last_last. apply in_or_app. right; left; auto. Qed.
Lemma zupd_eq : forall {B} (f : Z -> B) i x, zupd f i x i = x.
Proof. intros. unfold zupd. rewrite Z.eqb_refl. auto. Qed.
Lemma zupd_ne : forall {B} (f : Z -> B) i x j, j <> i -> zupd f i x j = f j.
Proof. intros. unfold zupd. destruct (Z.eqb_spec j i); congruence. Qed.

(* Unlinking the middle element. *)
Lemma linked_remove : forall nx pv l1 i l2 p q, NoDup (l1 ++ i :: l2) -> linked nx pv p (l1 ++ i :: l2) q ->
  forall nx' pv',
  (forall j, In j l1 -> pv' j = pv j) -> (forall j, In j l2 -> nx' j = nx j) ->
  (forall j, In j l1 -> j <> last l1 p -> nx' j = nx j) -> (l1 <> [] -> nx' (last l1 p) = hd q l2) ->
  (forall j, In j l2 -> j <> hd q l2 -> pv' j = pv j) -> (l2 <> [] -> pv' (hd q l2) = last l1 p) ->
  linked nx' pv' p (l1 ++ l2) q.
Proof.
  intros nx pv l1 i l2 p q ND HL nx' pv' H1 H2 H3 H4 H5 H6. apply linked_app in HL as [HA HB]. cbn [hd] in HA. destruct HB as (HB1 & HB2 & HB3).
  apply linked_app. split.
  - assert (ND1 : NoDup l1) by (apply NoDup_remove_1 in ND; clear - ND; induction l1; [constructor|]; inversion ND; subst; constructor; auto; intros K; apply H1; apply in_or_app; auto).
    clear ND HB1 HB2 HB3 H2 H5 H6. revert p HA H3 H4. induction l1 as [|j l1 IH]; intros p HA H3 H4; simpl; auto.
    cbn [linked] in HA. destruct HA as (E1 & E2 & E3). inversion ND1 as [|? ? NJ ND1']; subst. split; [rewrite H1 by (left; auto); auto|].
    rewrite last_cons' in H3, H4. destruct l1 as [|k l1].
    + split; simpl; auto. apply H4. discriminate.
    + split.
      * rewrite H3; [exact E2|left; auto|]. intros E. apply NJ. rewrite E. apply (last_in (k :: l1)). discriminate.
      * apply IH; auto; [intros; apply H1; right; auto| |]. { intros. apply H3; auto. right; auto. } { intros. apply H4. discriminate. }
  - destruct l2 as [|j l2]; simpl; auto. cbn [linked hd] in *. destruct HB3 as (E1 & E2 & E3). split; [apply H6; discriminate|]. split; [rewrite H2 by (left; auto); auto|].
    apply NoDup_remove_1 in ND. assert (ND2 : NoDup (j :: l2)) by (clear - ND; induction l1; auto; inversion ND; auto). inversion ND2; subst.
    eapply linked_ext; [|exact E3]. intros k Hk. split; [apply H2; right; auto|]. apply H5; [right; auto|]. intros ->. contradiction.
Qed.

Lemma NoDup_mid : forall {B} (l1 l2 : list B) i, NoDup (l1 ++ i :: l2) <-> NoDup (l1 ++ l2) /\ ~ In i (l1 ++ l2).
Proof.
  intros. split.
  - intros H. split; [apply NoDup_remove_1 in H; auto|apply NoDup_remove_2 in H; auto].
  - intros [H1 H2]. apply (Permutation.Permutation_NoDup (Permutation.Permutation_middle l1 l2 i)). constructor; auto.
Qed.

Lemma erase_FI : forall f l1 i l2 fr, FI f (l1 ++ i :: l2) fr ->
  exists f', f_erase f i = Some (f', hd (-1) l2) /\ FI f' (l1 ++ l2) (i :: fr) /\ f_n f' = f_n f /\ (forall j, j <> i -> f_dat f' j = f_dat f j).
Proof.
  intros f l1 i l2 fr I. pose proof I as [ND RG LK CH FS LS FR LV DD SZ].
  assert (NDl : NoDup (l1 ++ i :: l2)) by (clear - ND; induction (l1 ++ i :: l2); [constructor|]; inversion ND; subst; constructor; auto; intros K; apply H1; apply in_or_app; auto).
  assert (ND' : NoDup ((l1 ++ l2) ++ fr) /\ ~ In i ((l1 ++ l2) ++ fr)).
  { rewrite <- !app_assoc in *. cbn [app] in ND. apply NoDup_mid in ND. auto. }
  destruct ND' as [ND' NIi].
  assert (Hfr : forall j, In j fr -> ~ In j (l1 ++ i :: l2)).
  { intros j Hj Hj'. clear - ND Hj Hj'. induction (l1 ++ i :: l2) as [|x m IH]; [contradiction|]. inversion ND; subst. destruct Hj' as [->|Hj']; [apply H1; apply in_or_app; auto|]. auto. }
  assert (Ri : 0 <= i < f_n f). { apply RG. apply in_or_app. left. apply in_or_app. right; left; auto. }
  assert (Hnn : forall j, In j ((l1 ++ i :: l2) ++ fr) -> j <> -1) by (intros j Hj; apply RG in Hj; lia).
  pose proof LK as LK'. apply linked_app in LK' as [_ LKi]. cbn [linked] in LKi. destruct LKi as (Epv & Enx & _).
  assert (Mem1 : forall j, In j l1 -> In j (l1 ++ i :: l2)) by (intros; apply in_or_app; auto).
  assert (Mem2 : forall j, In j l2 -> In j (l1 ++ i :: l2)) by (intros; apply in_or_app; right; right; auto).
  assert (Ne1 : forall j, In j l1 -> j <> i) by (intros j Hj ->; apply NIi; apply in_or_app; left; apply in_or_app; auto).
  assert (Ne2 : forall j, In j l2 -> j <> i) by (intros j Hj ->; apply NIi; apply in_or_app; left; apply in_or_app; auto).
  assert (Nef : forall j, In j fr -> j <> i) by (intros j Hj ->; apply NIi; apply in_or_app; auto).
  assert (Dis : forall j, In j l1 -> ~ In j l2).
  { intros j Hj Hj2. clear - NDl Hj Hj2. induction l1 as [|x m IH]; [contradiction|]. inversion NDl; subst. destruct Hj as [->|Hj]; [apply H1; apply in_or_app; right; right; auto|auto]. }
  unfold f_erase. destruct (f_dat f i) as [x|] eqn:ED; [|exfalso; apply (LV i); auto; apply in_or_app; right; left; auto].
  destruct (Z.eqb_spec i (-1)); [lia|]. rewrite Enx, Epv. cbv zeta.
  assert (E2 : (if hd (-1) l2 =? -1 then -1 else hd (-1) l2) = hd (-1) l2) by (destruct (Z.eqb_spec (hd (-1) l2) (-1)); congruence).
  assert (Hl2 : (hd (-1) l2 =? -1) = match l2 with [] => true | _ => false end).
  { destruct l2 as [|j l2]; auto. cbn [hd]. destruct (Z.eqb_spec j (-1)); auto. exfalso. apply (Hnn j); auto. apply in_or_app; left. apply Mem2; left; auto. }
  assert (Hl1 : (last l1 (-1) =? -1) = match l1 with [] => true | _ => false end).
  { destruct l1 as [|j l1]; auto. destruct (Z.eqb_spec (last (j :: l1) (-1)) (-1)) as [E|]; auto. exfalso. apply (Hnn (last (j :: l1) (-1))); auto. apply in_or_app; left; apply Mem1, last_in; discriminate. }
  assert (Hfr0 : (f_free f =? -1) = match fr with [] => true | _ => false end).
  { rewrite FR. destruct fr as [|j fr]; auto. cbn [hd]. destruct (Z.eqb_spec j (-1)); auto. exfalso. apply (Hnn j); auto. apply in_or_app; right; left; auto. }
  rewrite E2. eexists. split; [reflexivity|]. split; [|split; [reflexivity|intros j Hj; cbn; apply zupd_ne; auto]].
  assert (NXo : forall j, j <> i -> (if f_free f =? -1 then zupd (if last l1 (-1) =? -1 then f_nx f else zupd (f_nx f) (last l1 (-1)) (hd (-1) l2)) i (-1)
         else zupd (zupd (if last l1 (-1) =? -1 then f_nx f else zupd (f_nx f) (last l1 (-1)) (hd (-1) l2)) i (-1)) i (f_free f)) j =
       (if last l1 (-1) =? -1 then f_nx f j else if j =? last l1 (-1) then hd (-1) l2 else f_nx f j)).
  { intros j Hj. destruct (f_free f =? -1); rewrite ?zupd_ne by auto; destruct (last l1 (-1) =? -1); auto. }
  constructor; cbn [f_n f_nx f_pv f_dat f_first f_last f_free f_size].
  - apply NoDup_mid. auto.
  - intros j. rewrite <- RG. rewrite !in_app_iff. cbn [In]. intuition.
  - eapply linked_remove; eauto.
    + intros j Hj. destruct (f_free f =? -1) eqn:EF; rewrite ?FR.
      * rewrite zupd_ne by auto. destruct (hd (-1) l2 =? -1); auto. apply zupd_ne. intros ->. destruct l2 as [|k l2]; [|apply (Dis k); auto; left; auto]. apply (Hnn (-1)); auto. apply in_or_app; left; apply Mem1; auto.
      * destruct fr as [|k fr]; [discriminate|]. cbn [hd]. rewrite zupd_ne by (intros ->; apply (Hfr k); [left; auto|auto]).
        rewrite zupd_ne by auto. destruct (hd (-1) l2 =? -1); auto. apply zupd_ne. intros ->. destruct l2 as [|m l2]; [|apply (Dis m); auto; left; auto]. apply (Hnn (-1)); auto. apply in_or_app; left; apply Mem1; auto.
    + intros j Hj. rewrite NXo by auto. rewrite Hl1. destruct l1 as [|k l1]; auto. destruct (Z.eqb_spec j (last (k :: l1) (-1))) as [->|]; auto. exfalso. apply (Dis (last (k :: l1) (-1))); auto. apply last_in; discriminate.
    + intros j Hj Hne. rewrite NXo by auto. rewrite Hl1. destruct l1 as [|k l1]; auto. destruct (Z.eqb_spec j (last (k :: l1) (-1))); [contradiction|auto].
    + intros Hn. rewrite NXo by (apply Ne1, last_in; auto). rewrite Hl1. destruct l1; [contradiction|]. rewrite Z.eqb_refl. auto.
    + intros j Hj Hne. destruct (f_free f =? -1) eqn:EF; rewrite ?FR.
      * rewrite zupd_ne by auto. destruct (hd (-1) l2 =? -1); auto. apply zupd_ne. auto.
      * destruct fr as [|k fr]; [discriminate|]. cbn [hd]. rewrite zupd_ne by (intros ->; apply (Hfr k); [left; auto|auto]).
        rewrite zupd_ne by auto. destruct (hd (-1) l2 =? -1); auto. apply zupd_ne. auto.
    + intros Hn. pose proof (hd_in l2 (-1) Hn) as Hin. rewrite Hl2. destruct (f_free f =? -1) eqn:EF; rewrite ?FR.
      * rewrite zupd_ne by auto. destruct l2; [contradiction|]. apply zupd_eq.
      * destruct fr as [|k fr]; [discriminate|]. cbn [hd]. rewrite zupd_ne by (intros E; apply (Hfr k); [left; auto|rewrite <- E; auto]).
        rewrite zupd_ne by auto. destruct l2; [contradiction|]. apply zupd_eq.
  - cbn [chained]. split.
    + rewrite Hfr0. destruct fr as [|k fr]; [apply zupd_eq|]. cbn [hd]. rewrite zupd_eq. rewrite FR. reflexivity.
    + eapply chained_ext; [|exact CH]. intros j Hj. rewrite NXo by auto. rewrite Hl1. destruct l1 as [|k l1]; auto.
      destruct (Z.eqb_spec j (last (k :: l1) (-1))) as [->|]; auto. exfalso. apply (Hfr (last (k :: l1) (-1))); auto. apply Mem1, last_in; discriminate.
  - rewrite FS, !hd_app. cbn [hd]. destruct l1 as [|k l1]; cbn [hd].
    + rewrite Z.eqb_refl. auto.
    + destruct (Z.eqb_spec k i) as [->|]; auto. exfalso. apply (Ne1 i); auto. left; auto.
  - rewrite LS. destruct l2 as [|k l2].
    + rewrite app_nil_r, last_last, Z.eqb_refl. auto.
    + assert (El : last (l1 ++ i :: k :: l2) (-1) = last (k :: l2) (-1)).
      { rewrite (app_removelast_last (l := k :: l2) (-1)) at 1 by discriminate. rewrite app_comm_cons, app_assoc, last_last. auto. }
      assert (El' : last (l1 ++ k :: l2) (-1) = last (k :: l2) (-1)).
      { rewrite (app_removelast_last (l := k :: l2) (-1)) at 1 by discriminate. rewrite app_assoc, last_last. auto. }
      rewrite El, El'. destruct (Z.eqb_spec (last (k :: l2) (-1)) i) as [E|]; auto. exfalso. apply (Ne2 (last (k :: l2) (-1))); auto. apply last_in; discriminate.
  - reflexivity.
  - intros j Hj. assert (Hji : j <> i) by (intros ->; apply NIi; apply in_or_app; auto). rewrite zupd_ne by auto. apply LV. apply in_app_iff in Hj as [Hj|Hj]; auto.
  - intros j Hj. destruct (Z.eq_dec j i) as [->|NE]; [apply zupd_eq|]. rewrite zupd_ne by auto. apply DD. intros K. apply Hj. apply in_app_iff in K as [K|[K|K]]; apply in_app_iff; auto. congruence.
  - rewrite SZ, !app_length. cbn [length]. lia.
Qed.

(* Linking a new element into a gap. *)
Lemma linked_insert : forall nx pv l1 l2 i p q, NoDup (l1 ++ l2) -> ~ In i (l1 ++ l2) -> linked nx pv p (l1 ++ l2) q ->
  forall nx' pv',
  (forall j, In j l1 -> pv' j = pv j) -> (forall j, In j l2 -> nx' j = nx j) ->
  (forall j, In j l1 -> j <> last l1 p -> nx' j = nx j) -> (l1 <> [] -> nx' (last l1 p) = i) ->
  (forall j, In j l2 -> j <> hd q l2 -> pv' j = pv j) -> (l2 <> [] -> pv' (hd q l2) = i) ->
  nx' i = hd q l2 -> pv' i = last l1 p ->
  linked nx' pv' p (l1 ++ i :: l2) q.
Proof.
  intros nx pv l1 l2 i p q ND NI HL nx' pv' H1 H2 H3 H4 H5 H6 H7 H8. apply linked_app in HL as [HA HB].
  apply linked_app. cbn [hd linked]. split.
  - assert (ND1 : NoDup l1) by (clear - ND; induction l1; [constructor|]; inversion ND; subst; constructor; auto; intros K; apply H1; apply in_or_app; auto).
    clear ND NI HB H2 H5 H6 H7 H8. revert p HA H3 H4. induction l1 as [|j l1 IH]; intros p HA H3 H4; simpl; auto.
    cbn [linked] in HA. destruct HA as (E1 & E2 & E3). inversion ND1 as [|? ? NJ ND1']; subst. split; [rewrite H1 by (left; auto); auto|].
    rewrite last_cons' in H3, H4. destruct l1 as [|k l1].
    + split; simpl; auto. apply H4. discriminate.
    + split.
      * rewrite H3; [exact E2|left; auto|]. intros E. apply NJ. rewrite E. apply (last_in (k :: l1)). discriminate.
      * apply IH; auto; [intros; apply H1; right; auto| |]. { intros. apply H3; auto. right; auto. } { intros. apply H4. discriminate. }
  - split; auto. split; auto. destruct l2 as [|j l2]; simpl; auto. cbn [linked hd] in *. destruct HB as (E1 & E2 & E3). split; [apply H6; discriminate|]. split; [rewrite H2 by (left; auto); auto|].
    assert (ND2 : NoDup (j :: l2)) by (clear - ND; induction l1; auto; inversion ND; auto). inversion ND2; subst.
    eapply linked_ext; [|exact E3]. intros k Hk. split; [apply H2; right; auto|]. apply H5; [right; auto|]. intros ->. contradiction.
Qed.

(* Common part of the three insertions. *)
Lemma insert_FI : forall f l1 l2 i fr x nxs pvs first last', FI f (l1 ++ l2) (i :: fr) ->
  (forall j, In j l1 -> pvs j = f_pv f j) -> (forall j, In j l2 -> nxs j = f_nx f j) ->
  (forall j, In j l1 -> j <> last l1 (-1) -> nxs j = f_nx f j) -> (l1 <> [] -> nxs (last l1 (-1)) = i) ->
  (forall j, In j l2 -> j <> hd (-1) l2 -> pvs j = f_pv f j) -> (l2 <> [] -> pvs (hd (-1) l2) = i) ->
  nxs i = hd (-1) l2 -> pvs i = last l1 (-1) -> (forall j, In j fr -> nxs j = f_nx f j) ->
  first = hd i l1 -> last' = last l2 i ->
  FI (mkF (f_n f) nxs pvs (zupd (f_dat f) i (Some x)) first last' (f_nx f i) (f_size f + 1)) (l1 ++ i :: l2) fr.
Proof.
  intros f l1 l2 i fr x nxs pvs first last' I H1 H2 H3 H4 H5 H6 H7 H8 H9 Hf Hl. pose proof I as [ND RG LK CH FS LS FR LV DD SZ].
  apply NoDup_mid in ND as [ND NI].
  assert (NDl : NoDup (l1 ++ l2)) by (clear - ND; induction (l1 ++ l2); [constructor|]; inversion ND; subst; constructor; auto; intros K; apply H1; apply in_or_app; auto).
  assert (NIl : ~ In i (l1 ++ l2)) by (intros K; apply NI; apply in_or_app; auto).
  constructor; cbn [f_n f_nx f_pv f_dat f_first f_last f_free f_size].
  - rewrite <- app_assoc. cbn [app]. apply NoDup_mid. rewrite app_assoc. auto.
  - intros j. rewrite <- RG. rewrite !in_app_iff. cbn [In]. intuition.
  - eapply linked_insert; eauto.
  - cbn [chained] in CH. eapply chained_ext; [|apply CH]. auto.
  - rewrite hd_app. auto.
  - rewrite Hl. destruct l2 as [|k l2]; [rewrite last_last; auto|]. change (i :: k :: l2) with ([i] ++ k :: l2). rewrite app_assoc.
    rewrite (app_removelast_last (l := k :: l2) (-1)) at 2 by discriminate. rewrite app_assoc, last_last. rewrite !last_cons'. reflexivity.
  - cbn [chained] in CH. apply CH.
  - intros j Hj. destruct (Z.eq_dec j i) as [->|NE]; [rewrite zupd_eq; discriminate|]. rewrite zupd_ne by auto. apply LV. apply in_app_iff in Hj as [Hj|[Hj|Hj]]; apply in_app_iff; auto. congruence.
  - intros j Hj. assert (j <> i) by (intros ->; apply Hj; apply in_or_app; right; left; auto). rewrite zupd_ne by auto. apply DD. intros K. apply Hj. apply in_app_iff in K as [K|K]; apply in_app_iff; auto. right; right; auto.
  - rewrite SZ, !app_length. cbn [length]. lia.
Qed.
End P.
