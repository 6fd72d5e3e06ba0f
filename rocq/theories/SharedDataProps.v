(** C26: a value written to a SharedData becomes visible after one cycle. *)
From Coq Require Import List Arith Bool Lia.
From Verif Require Import SharedDataModel.
Import ListNotations.

Section P.
Context {A : Type}.

(** Specification: what is visible now and what becomes visible at the next update. *)
Definition spec_step (x : option A * option A) (a : sdact A) : option A * option A :=
  let (vis, nxt) := x in
  match a with
  | SOp (SWrite v) => (vis, Some v)
  | SOp (SWritePS v) => (Some v, nxt)
  | SOp SClear => (None, None)
  | SOp SClearNS => (vis, None)
  | SOp SClearPS => (None, nxt)
  | SOp SMove => (vis, nxt)
  | SFire | ManUpd => (nxt, None)
  | SNext => (vis, nxt)
  end.

(** The order of calls for which the class works: one write in a cycle at most, and no call in the part of a
    cycle before the due update has fired (phases Trigger and Update). *)
Fixpoint tidy (due wrote : bool) (l : list (sdact A)) : Prop :=
  match l with
  | [] => True
  | a :: r => match a with
    | SOp (SWrite _) => due = false /\ wrote = false /\ tidy false true r
    | SOp SMove => False
    | SOp _ => due = false /\ tidy due wrote r
    | SFire => due = true /\ tidy false wrote r
    | SNext => due = false /\ tidy wrote false r
    | ManUpd => False
    end
  end.

Definition b2n (b : bool) : nat := if b then 1 else 0.
Definition Rel (s : sdata A) (x : option A * option A) (due wrote : bool) : Prop :=
  sd_read s = fst x /\ sd_readNS s = snd x /\ d_now s = b2n due /\ d_next s = b2n wrote.

Lemma run_app : forall man l1 l2 (s : sdata A), sd_run man s (l1 ++ l2) = match sd_run man s l1 with Some s' => sd_run man s' l2 | None => None end.
Proof. induction l1; intros; cbn [app sd_run]; auto. destruct (sd_step man s a); auto. Qed.

Lemma tidy_run : forall l s x due wrote l2, tidy due wrote (l ++ l2) -> Rel s x due wrote ->
  exists s' due' wrote', sd_run false s l = Some s' /\ Rel s' (fold_left spec_step l x) due' wrote' /\ tidy due' wrote' l2.
Proof.
  induction l as [|a l IH]; intros s x due wrote l2 T R; cbn [sd_run fold_left]; [exists s, due, wrote; auto|].
  destruct s as [c a0 a1 nw nx]. destruct R as [R1 [R2 [R3 R4]]]. destruct x as [vis nxt]. cbn [d_now d_next fst snd app] in *.
  destruct a as [o| | |]; cbn [tidy] in T.
  - destruct o as [v|v| | | |]; [destruct T as [-> [-> T]]|destruct T as [-> T]|destruct T as [-> T]|destruct T as [-> T]|destruct T as [-> T]|destruct T];
    cbn [sd_step]; (eapply IH; [exact T|]); unfold Rel; destruct c; cbn in *; subst; auto.
  - destruct T as [-> T]. cbn [b2n] in R3. subst nw. cbn [sd_step d_now]. eapply IH; [exact T|]. unfold Rel; destruct c; cbn in *; subst; auto.
  - destruct T as [-> T]. cbn [b2n] in R3. subst nw. cbn [sd_step d_now]. eapply IH; [exact T|]. unfold Rel; destruct c; cbn in *; subst; auto.
  - destruct T.
Qed.

(** All tidy executions behave as specified. *)
Theorem C26_refines_partial : forall v0 l, tidy false false l ->
  exists s, sd_run false (sd_init v0) l = Some s /\ (sd_read s, sd_readNS s) = fold_left spec_step l (Some v0, None).
Proof.
  intros v0 l T. rewrite <- (app_nil_r l) in T. destruct (tidy_run l (sd_init v0) (Some v0, None) false false [] T) as [s [d [w [E [[R1 [R2 _]] _]]]]].
  - repeat split; auto.
  - exists s. split; [auto|]. rewrite R1, R2. symmetry. apply surjective_pairing.
Qed.

(** The visible value is not affected by a write in its own cycle; from the update of the next cycle on it is
    the written value, for any number of idle cycles. *)
Theorem C26_visible_partial : forall v0 l v n s0, tidy false false (l ++ [SOp (SWrite v)]) -> sd_run false (sd_init v0) l = Some s0 ->
  (exists s1, sd_run false s0 [SOp (SWrite v)] = Some s1 /\ sd_read s1 = sd_read s0 /\ sd_readNS s1 = Some v) /\
  (exists s2, sd_run false s0 ([SOp (SWrite v); SNext; SFire] ++ repeat SNext n) = Some s2 /\ sd_read s2 = Some v /\ sd_readNS s2 = None).
Proof.
  intros v0 l v n s0 T E.
  destruct (tidy_run l (sd_init v0) (Some v0, None) false false _ T) as [s [d [w [E' [R TT]]]]]; [repeat split; auto|].
  rewrite E in E'. injection E' as <-. cbn [tidy] in TT. destruct TT as [-> [-> _]].
  destruct s0 as [c a0 a1 nw nx]. destruct R as [R1 [R2 [R3 R4]]]. cbn in R3, R4. subst. split.
  - eexists. split; [reflexivity|]. destruct c; cbn; auto.
  - rewrite run_app. assert (N : forall n s, d_now s = 0 -> d_next s = 0 -> exists s', sd_run false s (repeat SNext n) = Some s' /\ sd_read s' = @sd_read A s /\ sd_readNS s' = sd_readNS s).
    { clear. induction n; intros s H1 H2; cbn [repeat sd_run sd_step]; [eauto|]. rewrite H1. destruct (IHn (mkSD (d_cur s) (d_0 s) (d_1 s) (d_next s) 0)) as [s' [P1 P2]]; auto.
      exists s'. split; auto. }
    destruct c; cbn;
    (match goal with |- exists s2, sd_run false ?s (repeat SNext n) = _ /\ _ => destruct (N n s) as [s' [P1 [P2 P3]]]; [reflexivity|reflexivity|] end);
    exists s'; rewrite P2, P3; split; auto.
Qed.

(** With more than one write in a cycle the value is lost: after the updates of the next cycle nothing is valid. *)
Theorem C26_several_writes_refuted : forall (s : sdata A) vs, d_now s = 0 -> d_next s = 0 -> 2 <= length vs ->
  exists s', sd_run false s (map (fun v => SOp (SWrite v)) vs ++ SNext :: repeat SFire (length vs)) = Some s' /\ sd_read s' = None /\ sd_readNS s' = None.
Proof.
  intros s vs H1 H2 L. rewrite run_app.
  assert (W : forall vs s, exists s', sd_run false s (map (fun v => SOp (SWrite v)) vs) = Some s' /\ d_now s' = @d_now A s /\ d_next s' = length vs + d_next s).
  { clear. induction vs as [|v vs IH]; intros s; cbn [map sd_run sd_step length]; [exists s; auto|].
    destruct (IH (sd_op false s (SWrite v))) as [s' [E [N1 N2]]]. exists s'. split; [auto|]. rewrite N1, N2. destruct s as [[|] ? ? ? ?]; cbn; split; auto; lia. }
  destruct (W vs s) as [s1 [E [N1 N2]]]. rewrite E. cbn [sd_run sd_step]. rewrite N1, H1.
  assert (T : forall n t, d_now t = n -> @d_0 A t = None -> d_1 t = None -> exists s', sd_run false t (repeat SFire n) = Some s' /\ sd_read s' = None /\ sd_readNS s' = None).
  { clear. induction n; intros t T1 T2 T3; cbn [repeat sd_run sd_step].
    - exists t. split; [auto|]. unfold sd_read, sd_readNS, dget. rewrite T2, T3. destruct (ps t), (ns t); auto.
    - rewrite T1. apply IHn; destruct t as [[|] ? ? ? ?]; cbn in *; subst; auto. }
  rewrite N2, H2, Nat.add_0_r. destruct (length vs) as [|[|n]]; [lia|lia|]. destruct s1 as [[|] ? ? ? ?]; cbn; apply T; auto.
Qed.

(** Manual updates: every sequence of calls behaves as specified, the last write before an update wins. *)
Theorem C26_manual : forall v0 l, Forall (fun a => match a with SOp _ | ManUpd => True | _ => False end) l ->
  exists s, sd_run true (sd_init v0) l = Some s /\ (sd_read s, sd_readNS s) = fold_left spec_step l (Some v0, None).
Proof.
  intros v0 l F. assert (G : forall l s x, Forall (fun a => match a with SOp _ | ManUpd => True | _ => False end) l ->
    sd_read s = fst x -> sd_readNS s = snd x -> exists s', sd_run true s l = Some s' /\ (sd_read s', sd_readNS s') = fold_left spec_step l x).
  { clear. induction l as [|a l IH]; intros s x F R1 R2; cbn [sd_run fold_left].
    - exists s. split; [auto|]. rewrite R1, R2. symmetry. apply surjective_pairing.
    - inversion F as [|? ? F1 F2]; subst. destruct s as [c a0 a1 nw nx]. destruct x as [vis nxt]. cbn [fst snd] in *.
      destruct a as [o| | |]; try (exfalso; exact F1); [destruct o|]; cbn [sd_step]; apply IH; auto; destruct c; cbn in *; subst; auto. }
  apply G; auto.
Qed.
End P.

Example C26_refines_ex : let l := [SNext; SOp (SWrite 7); SNext; SFire; SOp (SWrite 8); SOp SClearPS; SNext; SFire; SNext; SOp SClear] in
  tidy false false l /\ fold_left spec_step (firstn 4 l) (Some 1, None) = (Some 7, None) /\ fold_left spec_step l (Some 1, None) = (None, None).
Proof. cbn. repeat split. Qed.
Print Assumptions C26_refines_partial.
Example C26_visible_ex : tidy false false ([SNext; SOp (SWrite 7); SNext; SFire] ++ [SOp (SWrite 9)]) /\
  exists s, sd_run false (sd_init 1) [SNext; SOp (SWrite 7); SNext; SFire] = Some s /\ sd_read s = Some 7.
Proof. split; [cbn; repeat split|]. eexists. split; reflexivity. Qed.
Print Assumptions C26_visible_partial.
Example C26_several_writes_ex : option_map sd_read (sd_run false (sd_init 1) [SOp (SWrite 7); SOp (SWrite 8); SNext; SFire; SFire]) = Some None.
Proof. reflexivity. Qed.
Print Assumptions C26_several_writes_refuted.
Example C26_manual_ex : option_map sd_read (sd_run true (sd_init 1) [SOp (SWrite 7); SOp (SWrite 8); ManUpd]) = Some (Some 8).
Proof. reflexivity. Qed.
Print Assumptions C26_manual.

(** A write made before the due update of its cycle has fired (phase Trigger, or earlier in Update) is visible in
    its own cycle and is lost in the next one. *)
Theorem C26_early_write_refuted : exists (l : list (sdact nat)) s1 s2,
  l = [SOp (SWrite 7); SNext; SOp (SWrite 8); SFire] /\ sd_run false (sd_init 1) l = Some s1 /\ sd_read s1 = Some 8
  /\ sd_run false s1 [SNext; SFire] = Some s2 /\ sd_read s2 = None.
Proof. do 3 eexists. split; [reflexivity|]. split; [reflexivity|]. split; [reflexivity|]. split; reflexivity. Qed.
Example C26_early_write_ex : option_map sd_read (sd_run false (sd_init 1) [SOp (SWrite 7); SNext; SFire; SOp (SWrite 8)]) = Some (Some 7).
Proof. reflexivity. Qed.
Print Assumptions C26_early_write_refuted.

(** Copying or moving the object forgets the pending update: the written value never becomes visible. *)
Theorem C26_move_refuted : forall (v0 v : nat) n, exists s, sd_run false (sd_init v0) ([SOp (SWrite v); SOp SMove] ++ repeat SNext n) = Some s
  /\ sd_read s = Some v0 /\ d_now s = 0.
Proof.
  intros v0 v n. cbn [app sd_run sd_step]. cbn. assert (G : forall n c a b, exists s, sd_run false (mkSD c a b 0 0) (repeat SNext n) = Some s /\ s = @mkSD nat c a b 0 0).
  { induction n0; intros; cbn [repeat sd_run sd_step d_now]; [eauto|]. cbn. apply IHn0. }
  destruct (G n false (Some v0) (Some v)) as [s [E ->]]. eexists. split; [exact E|]. auto.
Qed.
Example C26_move_ex : option_map sd_read (sd_run false (sd_init 1) [SOp (SWrite 7); SOp SMove; SNext; SNext]) = Some (Some 1).
Proof. reflexivity. Qed.
Print Assumptions C26_move_refuted.
