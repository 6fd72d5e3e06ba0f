(** Lemmas about the scoreboard model. *)
From Coq Require Import List NArith ZArith Bool Lia Permutation Arith.
Import ListNotations.
Require Import Verif.ScoreboardModel.
Open Scope N_scope.

Lemma put_len : forall B (l : list B) i x, length (put l i x) = length l.
Proof. induction l; destruct i; simpl; auto. Qed.
Lemma put_nth : forall B (l : list B) i x j, nth_error (put l i x) j = if Nat.eqb i j then option_map (fun _ => x) (nth_error l j) else nth_error l j.
Proof.
  induction l as [|a l IH]; intros i x j.
  - destruct i, j; simpl; auto; destruct (Nat.eqb i j); auto.
  - destruct i, j; simpl; auto.
Qed.

Definition vm (b : sb) (i : nat) : option N := option_map v_mask (nth_error (b_views b) i).
Definition vu (b : sb) (i : nat) : option N := option_map v_unit (nth_error (b_views b) i).
(** What a receive does not touch. *)
Definition frame (b b' : sb) : Prop :=
  b_mask b' = b_mask b /\ b_lat b' = b_lat b /\ b_units b' = b_units b /\ b_cons b' = b_cons b /\ b_now b' = b_now b /\
  length (b_views b') = length (b_views b) /\ (forall i, vu b' i = vu b i).
Lemma frame_refl : forall b, frame b b.
Proof. unfold frame; intuition. Qed.
Lemma frame_trans : forall a b c, frame a b -> frame b c -> frame a c.
Proof. unfold frame; intuition; try congruence; etransitivity; eauto. Qed.

Lemma receive_eq : forall b i bits b', receive b i bits = Some b' ->
  exists v, nth_error (b_views b) i = Some v /\ bits <> 0 /\
  b' = mkB (b_mask b) (b_lat b) (put (b_views b) i (mkV (v_unit v) (N.lor (v_mask v) bits) (fst (ready_cbs (N.lor (v_mask v) bits) (v_cbs v)))))
           (b_units b) (b_cons b) (b_fly b) (b_now b) (b_log b ++ map (fun c => mkC (b_now b) i c bits) (snd (ready_cbs (N.lor (v_mask v) bits) (v_cbs v)))).
Proof.
  intros b i bits b' H. unfold receive in H. destruct (nth_error (b_views b) i) as [v|] eqn:E; [|discriminate].
  destruct (N.eqb_spec bits 0); [discriminate|]. exists v. split; auto. split; auto.
  cbv zeta in H. destruct (ready_cbs (N.lor (v_mask v) bits) (v_cbs v)) as [st go]. injection H as H. symmetry. exact H.
Qed.
Lemma receive_frame : forall b i bits b', receive b i bits = Some b' ->
  frame b b' /\ b_fly b' = b_fly b /\ bits <> 0 /\ (i < length (b_views b))%nat /\
  (forall j, vm b' j = if Nat.eqb i j then option_map (fun m => N.lor m bits) (vm b j) else vm b j).
Proof.
  intros b i bits b' H. destruct (receive_eq _ _ _ _ H) as (v & E & Nz & ->).
  assert (i < length (b_views b))%nat by (apply nth_error_Some; congruence).
  unfold frame, vu, vm; cbn [b_mask b_lat b_views b_units b_cons b_fly b_now]. rewrite put_len.
  repeat split; auto; intro j; rewrite put_nth; destruct (Nat.eqb_spec i j) as [->|]; auto; rewrite E; reflexivity.
Qed.
Lemma lor_idem : forall m b, N.lor (N.lor m b) b = N.lor m b.
Proof. intros. rewrite <- N.lor_assoc, N.lor_diag. reflexivity. Qed.
Lemma ldiff_idem : forall m b, N.ldiff (N.ldiff m b) b = N.ldiff m b.
Proof. intros. apply N.bits_inj; intro k. rewrite !N.ldiff_spec. destruct (N.testbit m k), (N.testbit b k); auto. Qed.

Definition inb (i : nat) (l : list nat) : bool := existsb (Nat.eqb i) l.
Lemma inb_in : forall i l, inb i l = true <-> In i l.
Proof. intros. unfold inb. rewrite existsb_exists. split; [intros (x & I & E); apply Nat.eqb_eq in E; subst; auto | intros I; exists i; rewrite Nat.eqb_refl; auto]. Qed.

Lemma receives_frame : forall l b bits b', receives b l bits = Some b' ->
  frame b b' /\ b_fly b' = b_fly b /\ (forall j, vm b' j = if inb j l then option_map (fun m => N.lor m bits) (vm b j) else vm b j).
Proof.
  induction l as [|i l IH]; intros b bits b' H; simpl in H.
  - injection H as <-. split; [apply frame_refl|split; auto].
  - destruct (receive b i bits) as [b1|] eqn:E; [|discriminate].
    destruct (receive_frame _ _ _ _ E) as (F1 & Y1 & _ & _ & M1). destruct (IH _ _ _ H) as (F2 & Y2 & M2).
    split; [eapply frame_trans; eauto|split; [congruence|]]. intro j. rewrite M2, M1. unfold inb; simpl. fold (inb j l). rewrite (Nat.eqb_sym j i).
    destruct (Nat.eqb i j), (inb j l); simpl; auto. destruct (vm b j); simpl; auto. rewrite lor_idem. reflexivity.
Qed.

(** The updates a forward schedules. *)
Definition sent (now bits : N) (l : list (nat * N)) : list upd :=
  map (fun x => mkU (now + snd x) (fst x) bits) (filter (fun x => negb (snd x =? 0)) l).
Definition zeros (l : list (nat * N)) : list nat := map fst (filter (fun x => snd x =? 0) l).
Lemma forward_frame : forall l b bits b', forward b l bits = Some b' ->
  frame b b' /\ b_fly b' = b_fly b ++ sent (b_now b) bits l /\
  (forall j, vm b' j = if inb j (zeros l) then option_map (fun m => N.lor m bits) (vm b j) else vm b j).
Proof.
  induction l as [|[i lat] l IH]; intros b bits b' H; simpl in H.
  - injection H as <-. split; [apply frame_refl|split; auto]. simpl. rewrite app_nil_r. auto.
  - unfold sent, zeros. simpl filter. cbn [snd]. destruct (lat =? 0) eqn:Z; simpl negb; cbv iota.
    + destruct (receive b i bits) as [b1|] eqn:E; [|discriminate].
      destruct (receive_frame _ _ _ _ E) as (F1 & Y1 & _ & _ & M1). destruct (IH _ _ _ H) as (F2 & Y2 & M2).
      split; [eapply frame_trans; eauto|split].
      * rewrite Y2, Y1. destruct F1 as (_ & _ & _ & _ & -> & _). reflexivity.
      * intro j. rewrite M2, M1. unfold inb; simpl. fold (zeros l). fold (inb j (zeros l)). rewrite (Nat.eqb_sym j i).
        destruct (Nat.eqb i j), (inb j (zeros l)); simpl; auto. destruct (vm b j); simpl; auto. rewrite lor_idem. reflexivity.
    + destruct (IH _ _ _ H) as (F2 & Y2 & M2). split; [|split].
      * exact F2.
      * rewrite Y2. cbn [b_fly b_now]. rewrite <- app_assoc. reflexivity.
      * exact M2.
Qed.

Lemma clear_frame : forall b bits, let b' := clear_bits b bits in
  b_mask b' = N.ldiff (b_mask b) bits /\ b_lat b' = b_lat b /\ b_units b' = b_units b /\ b_cons b' = b_cons b /\ b_now b' = b_now b /\ b_fly b' = b_fly b /\
  b_log b' = b_log b /\ length (b_views b') = length (b_views b) /\ (forall i, vu b' i = vu b i) /\
  (forall i, vm b' i = if inb i (concat (b_units b)) then option_map (fun m => N.ldiff m bits) (vm b i) else vm b i) /\
  (forall i, option_map v_cbs (nth_error (b_views b') i) = option_map v_cbs (nth_error (b_views b) i)).
Proof.
  intros b bits b'. subst b'. unfold clear_bits, vu, vm. cbn [b_mask b_lat b_views b_units b_cons b_fly b_now b_log].
  repeat (split; [reflexivity|]).
  generalize (concat (b_units b)) as l. generalize (b_views b) as vs. clear b. intros vs l. revert vs.
  induction l as [|a l IH]; intro vs; simpl fold_left.
  - auto.
  - destruct (nth_error vs a) as [v|] eqn:E.
    + destruct (IH (put vs a (mkV (v_unit v) (N.ldiff (v_mask v) bits) (v_cbs v)))) as (L & U & M & K). clear IH. rewrite L, put_len. split; auto.
      split; [|split]; intro i; [rewrite U|rewrite M|rewrite K]; rewrite put_nth; unfold inb; simpl; fold (inb i l); rewrite ?(Nat.eqb_sym i a);
        destruct (Nat.eqb_spec a i) as [->|]; auto; rewrite E; simpl; auto.
      destruct (inb i l); auto. rewrite ldiff_idem. reflexivity.
    + destruct (IH vs) as (L & U & M & K). rewrite L. split; auto. split; auto. split; auto.
      intro i. rewrite M. unfold inb; simpl; fold (inb i l). destruct (Nat.eqb_spec i a) as [->|]; simpl; auto. rewrite E. destruct (inb a l); auto.
Qed.

Lemma nth_combine : forall A B (l : list A) (m : list B) p, nth_error (combine l m) p =
  match nth_error l p, nth_error m p with Some a, Some b => Some (a, b) | _, _ => None end.
Proof.
  induction l as [|a l IH]; intros m p; [destruct p; reflexivity|]. destruct m as [|b m], p; simpl; auto.
  - destruct (nth_error l p); auto.
Qed.

(** The tables fit the views. *)
Record wf (b : sb) : Prop := mkW {
  w_units : forall i, (i < length (b_views b))%nat -> In i (concat (b_units b));
  w_lat : length (b_lat b) = length (b_units b);
  w_cons : length (b_cons b) = length (b_units b);
  w_rows : Forall (fun r => length r = length (b_units b)) (b_lat b);
  w_unit : forall i u, vu b i = Some u -> (N.to_nat u < length (b_units b))%nat;
  w_to : forall p row cl i u lat, nth_error (b_lat b) p = Some row -> nth_error (b_cons b) p = Some cl -> vu b i = Some u ->
         nth_error row (N.to_nat u) = Some lat -> lat <> no_latency -> In (i, lat) cl;
  w_from : forall p row cl i lat, nth_error (b_lat b) p = Some row -> nth_error (b_cons b) p = Some cl -> In (i, lat) cl ->
         exists u, vu b i = Some u /\ nth_error row (N.to_nat u) = Some lat;
  w_fly : forall u, In u (b_fly b) -> (u_view u < length (b_views b))%nat /\ b_now b <= u_due u }.

Lemma vu_lt : forall b i u, vu b i = Some u -> (i < length (b_views b))%nat.
Proof. intros b i u H. unfold vu in H. apply nth_error_Some. destruct (nth_error (b_views b) i); simpl in H; congruence. Qed.
Lemma vu_some : forall b i, (i < length (b_views b))%nat -> exists u, vu b i = Some u.
Proof. intros b i H. unfold vu. destruct (nth_error (b_views b) i) eqn:E; simpl; eauto. apply nth_error_None in E. lia. Qed.
Lemma vm_some : forall b i, (i < length (b_views b))%nat -> exists u, vm b i = Some u.
Proof. intros b i H. unfold vm. destruct (nth_error (b_views b) i) eqn:E; simpl; eauto. apply nth_error_None in E. lia. Qed.
Lemma vm_lt : forall b i u, vm b i = Some u -> (i < length (b_views b))%nat.
Proof. intros b i u H. unfold vm in H. apply nth_error_Some. destruct (nth_error (b_views b) i); simpl in H; congruence. Qed.

Lemma wf_init : forall t b, b_init t = Some b -> wf b.
Proof.
  intros t b H. unfold b_init in H. destruct (forallb _ t) eqn:F; [|discriminate]. injection H as <-.
  constructor; unfold vu; cbn [b_mask b_lat b_views b_units b_cons b_fly b_now]; rewrite ?map_length; auto.
  - intros i L. simpl in L. lia.
  - apply Forall_forall. intros r I. apply in_map_iff in I. destruct I as (z & <- & I). rewrite map_length.
    rewrite forallb_forall in F. apply Nat.eqb_eq. auto.
  - intros i u H. destruct i; discriminate.
  - intros. destruct i; discriminate.
  - intros p row cl i lat _ H I. apply nth_error_In in H. apply in_map_iff in H. destruct H as (z & <- & _). destruct I.
  - intros u [].
Qed.

(** Steps that keep the tables. *)
Lemma wf_keep : forall b b', wf b -> b_lat b' = b_lat b -> b_units b' = b_units b -> b_cons b' = b_cons b ->
  length (b_views b') = length (b_views b) -> (forall i, vu b' i = vu b i) ->
  (forall u, In u (b_fly b') -> (u_view u < length (b_views b))%nat /\ b_now b' <= u_due u) -> wf b'.
Proof.
  intros b b' W L U K N V Y. destruct W. constructor; rewrite ?L, ?U, ?K, ?N; auto.
  - intros i u H. rewrite V in H. eauto.
  - intros p row cl i u lat A B D. rewrite V in D. eauto.
  - intros p row cl i lat A B D. rewrite V. eauto.
Qed.
Lemma set_all_eq : forall b bits b', set_all b bits = Some b' -> exists b1, receives b (concat (b_units b)) bits = Some b1 /\ b' = or_mask b1 bits.
Proof. intros b bits b' H. unfold set_all in H. destruct (receives b _ bits) as [b1|]; [|discriminate]. injection H as <-. eauto. Qed.
Lemma set_from_eq : forall b bits p b', set_from b bits p = Some b' ->
  exists cl b1, nth_error (b_cons b) p = Some cl /\ forward b cl bits = Some b1 /\ b' = or_mask b1 bits.
Proof. intros b bits p b' H. unfold set_from in H. destruct (nth_error (b_cons b) p) as [cl|]; [|discriminate]. destruct (forward b cl bits) as [b1|] eqn:E; [|discriminate]. injection H as <-. eauto. Qed.
Lemma take_due_spec : forall now l u r, take_due now l = Some (u, r) -> u_due u = now /\ In u l /\ (forall x, In x r -> In x l) /\ (forall x, In x l -> x = u \/ In x r).
Proof.
  induction l as [|a l IH]; intros u r H; [discriminate|]. simpl in H. destruct (N.eqb_spec (u_due a) now).
  - injection H as <- <-. split; auto. split; [left; auto|]. split; [right; auto|]. intros x [->|]; auto.
  - destruct (take_due now l) as [[u' r']|]; [|discriminate]. injection H as <- <-. cbn [fst snd].
    destruct (IH _ _ eq_refl) as (A & B & K & D). split; auto. split; [right; auto|]. split.
    + intros x [->|I]; [left; auto|right; auto].
    + intros x [->|I]; [right; left; auto|]. destruct (D _ I); [auto|right; right; auto].
Qed.
Lemma take_due_none : forall now l, take_due now l = None -> forall u, In u l -> u_due u <> now.
Proof.
  induction l as [|a l IH]; intros H u I; [destruct I|]. simpl in H. destruct (N.eqb_spec (u_due a) now); [discriminate|].
  destruct (take_due now l) as [[u' r']|]; [discriminate|]. destruct I as [->|I]; auto.
Qed.
Lemma deliver_eq : forall b b', deliver b = Some b' -> exists u r, take_due (b_now b) (b_fly b) = Some (u, r) /\
  receive (mkB (b_mask b) (b_lat b) (b_views b) (b_units b) (b_cons b) r (b_now b) (b_log b)) (u_view u) (u_bits u) = Some b'.
Proof. intros b b' H. unfold deliver in H. destruct (take_due _ _) as [[u r]|]; [|discriminate]. eauto. Qed.
Lemma tick_eq : forall b b', tick b = Some b' -> take_due (b_now b) (b_fly b) = None /\
  b' = mkB (b_mask b) (b_lat b) (b_views b) (b_units b) (b_cons b) (b_fly b) (b_now b + 1) (b_log b).
Proof. intros b b' H. unfold tick in H. destruct (take_due _ _) as [[u r]|]; [discriminate|]. injection H as <-. auto. Qed.
Lemma with_cbs_eq : forall b i f b', with_cbs b i f = Some b' -> exists v, nth_error (b_views b) i = Some v /\
  b' = mkB (b_mask b) (b_lat b) (put (b_views b) i (mkV (v_unit v) (v_mask v) (f (v_cbs v)))) (b_units b) (b_cons b) (b_fly b) (b_now b) (b_log b).
Proof. intros b i f b' H. unfold with_cbs in H. destruct (nth_error (b_views b) i) as [v|]; [|discriminate]. injection H as <-. eauto. Qed.
Lemma with_cbs_frame : forall b i f b', with_cbs b i f = Some b' -> frame b b' /\ b_fly b' = b_fly b /\ b_log b' = b_log b /\ (forall j, vm b' j = vm b j).
Proof.
  intros b i f b' H. destruct (with_cbs_eq _ _ _ _ H) as (v & E & ->). unfold frame, vu, vm; cbn [b_mask b_lat b_views b_units b_cons b_fly b_now b_log].
  rewrite put_len. repeat split; intro j; rewrite put_nth; destruct (Nat.eqb_spec i j) as [->|]; auto; rewrite E; reflexivity.
Qed.
Lemma in_sent : forall now bits l u, In u (sent now bits l) <-> exists i lat, In (i, lat) l /\ lat <> 0 /\ u = mkU (now + lat) i bits.
Proof.
  intros. unfold sent. rewrite in_map_iff. split.
  - intros ([i lat] & <- & I). apply filter_In in I. destruct I as [I Z]. exists i, lat. split; auto. split; auto. intros ->. discriminate.
  - intros (i & lat & I & Z & ->). exists (i, lat). split; auto. apply filter_In. split; auto. cbn. apply N.eqb_neq in Z. rewrite Z. reflexivity.
Qed.
Lemma in_zeros : forall l i, In i (zeros l) <-> In (i, 0) l.
Proof.
  intros. unfold zeros. rewrite in_map_iff. split.
  - intros ([j lat] & E & I). apply filter_In in I. destruct I as [I Z]. cbn in *. apply N.eqb_eq in Z. subst. auto.
  - intros I. exists (i, 0). split; auto. apply filter_In. split; auto.
Qed.
Lemma wf_set_from : forall b bits p b', wf b -> set_from b bits p = Some b' -> wf b'.
Proof.
  intros b bits p b' W H. destruct (set_from_eq _ _ _ _ H) as (cl & b1 & E & F & ->). destruct (forward_frame _ _ _ _ F) as (Fr & Y & _).
  destruct Fr as (F1 & F2 & F3 & F4 & F5 & F6 & F7).
  apply wf_keep with b; auto. cbn [or_mask b_fly b_now]. rewrite Y, F5. intros u I. apply in_app_or in I. destruct I as [I|I].
  - apply (w_fly _ W u I).
  - apply in_sent in I. destruct I as (i & lat & I & Z & ->). cbn [u_view u_due].
    assert (exists row, nth_error (b_lat b) p = Some row) as [row R].
    { destruct (nth_error (b_lat b) p) as [row|] eqn:R; [eauto|]. apply nth_error_None in R.
      assert (p < length (b_cons b))%nat by (apply nth_error_Some; congruence). rewrite (w_lat _ W) in R. rewrite (w_cons _ W) in H0. lia. }
    destruct (w_from _ W p row cl i lat R E I) as (u & V & _). split; [apply (vu_lt b i u V)|lia].
Qed.

Lemma concat_put : forall (l : list (list nat)) u vs i, nth_error l u = Some vs -> forall x, In x (concat (put l u (vs ++ [i]))) <-> (x = i \/ In x (concat l)).
Proof.
  induction l as [|a l IH]; intros [|u] vs i H x; simpl in H; try discriminate; simpl.
  - injection H as ->. rewrite !in_app_iff. simpl. intuition.
  - rewrite !in_app_iff. rewrite (IH u vs i H). intuition.
Qed.
Lemma nth_snoc : forall A (l : list A) x i, nth_error (l ++ [x]) i = if Nat.eqb i (length l) then Some x else nth_error l i.
Proof.
  intros. destruct (Nat.eqb_spec i (length l)) as [->|Ne].
  - rewrite nth_error_app2, Nat.sub_diag by lia. reflexivity.
  - destruct (lt_dec i (length l)); [rewrite nth_error_app1 by lia; auto|]. rewrite nth_error_app2 by lia.
    transitivity (@None A); [|symmetry]; apply nth_error_None; simpl; lia.
Qed.
Lemma put_last : forall A (l : list A) x y, put (l ++ [x]) (length l) y = l ++ [y].
Proof. induction l as [|a l IH]; intros; simpl; [reflexivity|]. rewrite IH. reflexivity. Qed.
Lemma new_view_frame : forall b u b', new_view b u = Some b' ->
  b_mask b <> 0 /\ (u < length (b_units b))%nat /\ b_mask b' = b_mask b /\ b_lat b' = b_lat b /\ b_now b' = b_now b /\ b_fly b' = b_fly b /\ b_log b' = b_log b /\
  b_cons b' = add_consumer (length (b_views b)) u (b_lat b) (b_cons b) /\ length (b_units b') = length (b_units b) /\
  b_views b' = b_views b ++ [mkV (N.of_nat u) (N.lor (2 ^ 32 - 1) (b_mask b)) []] /\
  (forall x, In x (concat (b_units b')) <-> (x = length (b_views b) \/ In x (concat (b_units b)))).
Proof.
  intros b u b' H. unfold new_view in H. destruct (nth_error (b_units b) u) as [vs|] eqn:E; [|discriminate]. cbv zeta in H.
  cbn [b_mask] in H. destruct (receive _ _ _) as [b2|] eqn:R; [|discriminate]. injection H as <-.
  destruct (receive_eq _ _ _ _ R) as (v & Ev & Nz & ->). cbn [b_views] in Ev. rewrite nth_snoc, Nat.eqb_refl in Ev. injection Ev as <-.
  cbn [b_mask b_lat b_views b_units b_cons b_fly b_now b_log v_cbs v_mask v_unit ready_cbs fst snd map]. rewrite app_nil_r, put_len.
  split; [exact Nz|]. split; [apply nth_error_Some; congruence|].
  repeat (split; [reflexivity|]). split; [|intro x; apply concat_put; auto].
  apply put_last.
Qed.
Lemma wf_new_view : forall b u b', wf b -> new_view b u = Some b' -> wf b'.
Proof.
  intros b u b' W H. destruct (new_view_frame _ _ _ H) as (Nz & Lu & M & L & T & Y & _ & K & N & V & U).
  assert (VU : forall i, vu b' i = if Nat.eqb i (length (b_views b)) then Some (N.of_nat u) else vu b i).
  { intro i. unfold vu. rewrite V, nth_snoc. destruct (Nat.eqb i (length (b_views b))); reflexivity. }
  assert (LV : length (b_views b') = S (length (b_views b))) by (rewrite V, app_length; simpl; lia).
  constructor; rewrite ?L, ?N, ?Y, ?T.
  - intros i I. rewrite LV in I. apply U. destruct (Nat.eq_dec i (length (b_views b))); [auto|]. right. apply (w_units _ W). lia.
  - apply (w_lat _ W).
  - rewrite K. unfold add_consumer. rewrite map_length, combine_length, (w_lat _ W), (w_cons _ W). apply Nat.min_id.
  - apply (w_rows _ W).
  - intros i x E. rewrite VU in E. destruct (Nat.eqb i (length (b_views b))); [injection E as <-; rewrite Nat2N.id; auto|]. eapply (w_unit _ W); eauto.
  - intros p row cl i x lat R E D G Ne. rewrite K in E. unfold add_consumer in E. rewrite nth_error_map, nth_combine, R in E.
    destruct (nth_error (b_cons b) p) as [cl0|] eqn:E0; [|discriminate]. simpl in E. injection E as E. rewrite VU in D.
    destruct (Nat.eqb_spec i (length (b_views b))) as [->|Ni].
    + injection D as <-. rewrite Nat2N.id in G. rewrite G in E. apply N.eqb_neq in Ne. rewrite Ne in E. subst cl. apply in_or_app; right; left; auto.
    + assert (In (i, lat) cl0) by (eapply (w_to _ W); eauto). subst cl. destruct (nth_error row u) as [l0|]; auto. destruct (l0 =? no_latency); auto. apply in_or_app; auto.
  - intros p row cl i lat R E I. rewrite K in E. unfold add_consumer in E. rewrite nth_error_map, nth_combine, R in E.
    destruct (nth_error (b_cons b) p) as [cl0|] eqn:E0; [|discriminate]. simpl in E. injection E as E.
    assert (Old : In (i, lat) cl0 -> exists u0, vu b' i = Some u0 /\ nth_error row (N.to_nat u0) = Some lat).
    { intro I0. destruct (w_from _ W _ _ _ _ _ R E0 I0) as (u0 & A & B). exists u0. split; auto. rewrite VU.
      pose proof (vu_lt _ _ _ A). destruct (Nat.eqb_spec i (length (b_views b))); [lia|auto]. }
    subst cl. destruct (nth_error row u) as [l0|] eqn:G; auto. destruct (l0 =? no_latency); auto. apply in_app_or in I. destruct I as [I|[I|[]]]; auto.
    injection I as <- <-. exists (N.of_nat u). rewrite VU, Nat.eqb_refl, Nat2N.id. auto.
  - intros x I. destruct (w_fly _ W x I). lia.
Qed.
Lemma wf_step : forall b o b', wf b -> sstep b o = Some b' -> wf b'.
Proof.
  intros b o b' W H. destruct o; cbn [sstep] in H.
  - destruct (set_all_eq _ _ _ H) as (b1 & R & ->). destruct (receives_frame _ _ _ _ R) as (Fr & Y & _). destruct Fr as (F1 & F2 & F3 & F4 & F5 & F6 & F7).
    apply wf_keep with b; auto. cbn [or_mask b_fly b_now]. rewrite Y, F5. apply (w_fly _ W).
  - eapply wf_set_from; eauto.
  - destruct (nth_error (b_views b) i); [|discriminate]. destruct (bits =? 0); [injection H as <-; auto|]. eapply wf_set_from; eauto.
  - injection H as <-. destruct (clear_frame b bits) as (_ & L & U & K & T & Y & _ & N & V & _). apply wf_keep with b; auto. rewrite Y, T. apply (w_fly _ W).
  - eapply wf_new_view; eauto.
  - destruct (with_cbs_frame _ _ _ _ H) as (Fr & Y & _). destruct Fr as (F1 & F2 & F3 & F4 & F5 & F6 & F7). apply wf_keep with b; auto. rewrite Y, F5. apply (w_fly _ W).
  - destruct (with_cbs_frame _ _ _ _ H) as (Fr & Y & _). destruct Fr as (F1 & F2 & F3 & F4 & F5 & F6 & F7). apply wf_keep with b; auto. rewrite Y, F5. apply (w_fly _ W).
  - destruct (deliver_eq _ _ H) as (u & r & T & R). destruct (receive_frame _ _ _ _ R) as (Fr & Y & _). destruct Fr as (F1 & F2 & F3 & F4 & F5 & F6 & F7).
    cbn [b_mask b_lat b_views b_units b_cons b_fly b_now] in *. apply wf_keep with b; auto. rewrite Y, F5. intros x I.
    destruct (take_due_spec _ _ _ _ T) as (_ & _ & D & _). apply (w_fly _ W). auto.
  - destruct (tick_eq _ _ H) as (T & ->). apply wf_keep with b; auto. cbn [b_fly b_now]. intros u I. destruct (w_fly _ W u I) as [A B]. split; auto.
    pose proof (take_due_none _ _ T u I). lia.
Qed.
Lemma wf_run : forall ops b b', wf b -> srun b ops = Some b' -> wf b'.
Proof.
  induction ops as [|o ops IH]; intros b b' W H; simpl in H; [injection H as <-; auto|].
  destruct (sstep b o) as [b1|] eqn:E; [|discriminate]. eapply IH; [|eauto]. eapply wf_step; eauto.
Qed.
