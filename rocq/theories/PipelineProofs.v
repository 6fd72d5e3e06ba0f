(** Lemmas about the Pipeline model. *)
From Coq Require Import List NArith Arith Bool Lia.
From Verif Require Import MathUtilsModel QueueProofs PipeModel PipeProofs PipeProps PipelineModel.
Import ListNotations.
Open Scope N_scope.

Section P.
Context {A : Type}.
Implicit Types (p : pipe A) (L : list (option A)) (l : pline A).

(* Each datum moves one cell on if it is free to go and the next cell is empty once that one's datum has moved.
   Cell 0 is the append slot. *)
Fixpoint settle (free : nat -> bool) (i : nat) (L : list (option A)) : list (option A) :=
  match L with
  | [] => []
  | x :: r => match x, settle free (S i) r with
              | Some a, None :: t => if free i then None :: Some a :: t else x :: None :: t
              | _, r' => x :: r'
              end
  end.
Lemma settle_cons : forall free i x r, settle free i (x :: r) =
  match x, settle free (S i) r with Some a, None :: t => if free i then None :: Some a :: t else x :: None :: t | _, r' => x :: r' end.
Proof. reflexivity. Qed.
Lemma settle_len : forall free L i, length (settle free i L) = length L.
Proof.
  induction L as [|x r IH]; intros i; auto. rewrite settle_cons. specialize (IH (S i)). destruct x, (settle free (S i) r) as [|[b|] t]; simpl in *; auto.
  destruct (free i); simpl; auto.
Qed.
Lemma settle_snoc : forall free L i x y,
  let c := ok x && negb (ok y) && free (i + length L)%nat in
  settle free i (L ++ [x; y]) = settle free i (L ++ [if c then None else x]) ++ [if c then x else y].
Proof.
  induction L as [|h r IH]; intros i x y.
  - cbn [app length]. rewrite Nat.add_0_r. cbv zeta. destruct x, y; cbn; auto. destruct (free i); auto.
  - specialize (IH (S i) x y). cbv zeta in *. cbn [length]. rewrite <- plus_n_Sm. change (S i + length r)%nat with (S (i + length r)) in IH.
    rewrite <- !app_comm_cons, !settle_cons, IH.
    set (c := ok x && negb (ok y) && free (S (i + length r))).
    assert (HL : length (settle free (S i) (r ++ [if c then None else x])) <> 0%nat) by (rewrite settle_len, app_length; simpl; lia).
    destruct (settle free (S i) (r ++ [if c then None else x])) as [|z t]; [contradiction|]. destruct h, z; cbn [app]; auto. destruct (free i); auto.
Qed.

(* The inner pipe. *)
Record G p : Prop := { G_I : PI p; G_nv : NVI p; G_own : p_own p = false }.
Lemma gstep : forall p o p', G p -> step p o = Some p' -> match o with OFlushIf _ | OOwn => False | _ => True end ->
  G p' /\ p_n p' = p_n p /\ spec (p_own p) (p_sched p) (view p) o = Some (view p').
Proof.
  intros p o p' [I NV O] E H. pose proof (step_good p o p' I E) as [S (I' & En & K & _)].
  split; [|split; auto]. constructor; auto; [apply K; auto; destruct o; simpl; auto; contradiction|].
  destruct o; cbn [step] in E; try contradiction;
    unfold append, write, invalidate, flush, flush_append, flush_all, clear, update, shift_append, fire, internal_update, resched, quiet in E.
  - destruct (ok _); [discriminate|]. injection E as <-. auto.
  - destruct (phys_stage _ _); [|discriminate]. injection E as <-. auto.
  - destruct (phys_stage _ _); [|discriminate]. destruct (ok _); [|discriminate]. injection E as <-. auto.
  - destruct (phys_stage _ _); [|discriminate]. injection E as <-. auto.
  - injection E as <-. auto.
  - injection E as <-. auto.
  - injection E as <-. auto.
  - rewrite O in E. destruct (phys_stage _ _); [|discriminate]. injection E as <-. auto.
  - destruct (appended p); [|injection E as <-; auto]. destruct (is_valid p 0) as [[|]|]; try discriminate; [injection E as <-; auto|].
    unfold write, resched in E. destruct (phys_stage p 0); [|discriminate]. injection E as <-. auto.
  - destruct (p_sched p); [|injection E as <-; auto].
    destruct (phys_stage _ _); [|discriminate]. injection E as <-. auto.
Qed.
Lemma gdo : forall p o L', G p -> match o with OFlushIf _ | OOwn => False | _ => True end -> spec (p_own p) (p_sched p) (view p) o = Some L' ->
  exists p', step p o = Some p' /\ G p' /\ p_n p' = p_n p /\ view p' = L'.
Proof.
  intros p o L' Gp H E. pose proof (step_spec p o (G_I p Gp)) as K. rewrite E in K. destruct (step p o) as [p'|] eqn:ES; [|contradiction].
  exists p'. destruct (gstep p o p' Gp ES H) as (G' & En & _). repeat (split; auto). apply K.
Qed.
Lemma valid_nth : forall p s, PI p -> is_valid p s = if s <? p_n p then Some (ok (nth (S (N.to_nat s)) (view p) None)) else None.
Proof.
  intros p s I. unfold is_valid. destruct (N.ltb_spec s (p_n p)) as [H|H]; [|rewrite stage_out by auto; auto].
  rewrite stage_ix by auto. cbn [option_map]. destruct (at_nth p s I H) as [_ E]. rewrite (nth_error_nth _ _ None E). auto.
Qed.
Lemma read_nth : forall p s, PI p -> s < p_n p -> read p s = nth (S (N.to_nat s)) (view p) None.
Proof.
  intros p s I H. unfold read. rewrite stage_ix by auto. destruct (at_nth p s I H) as [_ E]. rewrite (nth_error_nth _ _ None E). auto.
Qed.
Lemma push1_ok : forall p s a, G p -> N.of_nat (S s) < p_n p -> nth (S s) (view p) None = Some a ->
  exists p', push1 p (N.of_nat s) = Some p' /\ G p' /\ p_n p' = p_n p /\ view p' = set (S s) None (set (S (S s)) (Some a) (view p)).
Proof.
  intros p s a Gp Hs Ha. unfold push1. rewrite read_nth by (destruct Gp; auto; lia). rewrite Nat2N.id, Ha.
  assert (HL : length (view p) = S (N.to_nat (p_n p))) by apply view_len.
  destruct (gdo p (OWrite (N.of_nat s + 1) a) (set (S (S s)) (Some a) (view p)) Gp Logic.I) as (p1 & E1 & G1 & En1 & V1).
  { unfold spec. rewrite len_n. destruct (N.ltb_spec (N.of_nat s + 1) (p_n p)); [|lia]. replace (N.to_nat (N.of_nat s + 1)) with (S s) by lia. auto. }
  cbn [step] in E1. rewrite E1.
  destruct (gdo p1 (OInvalidate (N.of_nat s)) (set (S s) None (view p1)) G1 Logic.I) as (p2 & E2 & G2 & En2 & V2).
  { unfold spec. rewrite len_n, En1. destruct (N.ltb_spec (N.of_nat s) (p_n p)); [|lia]. rewrite Nat2N.id, V1, set_nth by lia.
    destruct (Nat.eqb_spec (S s) (S (S s))); [lia|]. rewrite (nth_error_nth' _ None) by lia. rewrite Ha. auto. }
  cbn [step] in E2. exists p2. split; auto. split; auto. split; [congruence|]. rewrite V2, V1. auto.
Qed.
Lemma set_nth' : forall {B} j (x : B) (l : list B) i d, (j < length l)%nat -> nth i (set j x l) d = if Nat.eqb i j then x else nth i l d.
Proof.
  intros B j x l i d H. pose proof (set_nth j x l i H) as E. destruct (Nat.eqb_spec i j) as [->|NE].
  - apply nth_error_nth; auto.
  - destruct (nth_error l i) eqn:EL.
    + rewrite (nth_error_nth _ _ d E), (nth_error_nth _ _ d EL). auto.
    + apply nth_error_None in EL. apply nth_error_None in E. rewrite !nth_overflow; auto.
Qed.
Lemma drain_a_ok : forall s p start, G p -> N.of_nat s < p_n p -> nth (S s) (view p) None = None -> (start <= s)%nat ->
  exists p', drain_a p s (N.of_nat start) = Some (p', start) /\ G p' /\ p_n p' = p_n p /\
  forall i, nth i (view p') None = if Nat.eqb i (S start) then None else if Nat.ltb (S start) i && Nat.leb i (S s) then nth (i - 1) (view p) None else nth i (view p) None.
Proof.
  induction s as [|s IH]; intros p start Gp Hs HN HS.
  - assert (start = 0)%nat by lia. subst. exists p. split; auto. split; auto. split; auto. intros i.
    destruct (Nat.eqb_spec i 1) as [->|]; auto. destruct (Nat.ltb_spec 1 i), (Nat.leb_spec i 1); try lia; auto.
  - cbn [drain_a]. destruct (N.ltb_spec (N.of_nat start) (N.of_nat (S s))) as [H|H].
    + rewrite valid_nth by apply Gp. destruct (N.ltb_spec (N.of_nat s) (p_n p)); [|lia]. rewrite Nat2N.id.
      assert (HL : length (view p) = S (N.to_nat (p_n p))) by apply view_len.
      destruct (nth (S s) (view p) None) as [a|] eqn:EA; cbn [ok].
      * destruct (push1_ok p s a Gp Hs EA) as (p1 & E1 & G1 & En1 & V1). rewrite E1.
        destruct (IH p1 start G1 ltac:(lia)) as (p2 & E2 & G2 & En2 & V2); [rewrite V1, set_nth' by (rewrite set_len; lia); rewrite Nat.eqb_refl; auto|lia|].
        exists p2. split; auto. split; auto. split; [congruence|]. intros i. rewrite V2, V1. destruct (Nat.eqb_spec i (S start)); auto.
        rewrite !set_nth' by (try rewrite set_len; lia).
        destruct (Nat.ltb_spec (S start) i), (Nat.leb_spec i (S s)), (Nat.leb_spec i (S (S s))); cbn [andb]; try lia.
        -- destruct (Nat.eqb_spec (i - 1) (S s)), (Nat.eqb_spec (i - 1) (S (S s))); try lia; auto.
        -- assert (i = S (S s)) by lia. subst i. rewrite Nat.eqb_refl. replace (S (S s) - 1)%nat with (S s) by lia. rewrite EA. destruct (Nat.eqb_spec (S (S s)) (S s)); [lia|auto].
        -- destruct (Nat.eqb_spec i (S s)), (Nat.eqb_spec i (S (S s))); try lia; auto.
        -- destruct (Nat.eqb_spec i (S s)), (Nat.eqb_spec i (S (S s))); try lia; auto.
      * destruct (IH p start Gp ltac:(lia) EA ltac:(lia)) as (p2 & E2 & G2 & En2 & V2). exists p2. split; auto. split; auto. split; auto.
        intros i. rewrite V2. destruct (Nat.eqb_spec i (S start)); auto.
        destruct (Nat.ltb_spec (S start) i), (Nat.leb_spec i (S s)), (Nat.leb_spec i (S (S s))); cbn [andb]; try lia; auto.
        assert (i = S (S s)) by lia. subst i. rewrite HN. replace (S (S s) - 1)%nat with (S s) by lia. auto.
    + assert (start = S s) by lia. subst start. exists p. split; auto. split; auto. split; auto. intros i.
      destruct (Nat.eqb_spec i (S (S s))) as [->|]; auto. destruct (Nat.ltb_spec (S (S s)) i), (Nat.leb_spec i (S (S s))); try lia; auto.
Qed.

Lemma split2 : forall {B} (L : list B) s d, (S s < length L)%nat -> L = firstn s L ++ [nth s L d; nth (S s) L d] ++ skipn (S (S s)) L.
Proof.
  intros B L s d H. rewrite <- (firstn_skipn s L) at 1. f_equal.
  revert s H. induction L as [|x L IH]; intros s H; [simpl in H; lia|]. destruct s; [destruct L; [simpl in H; lia|auto]|]. cbn [skipn nth]. apply IH. simpl in H; lia.
Qed.
Lemma firstn_snoc : forall {B} (L : list B) s d, (s < length L)%nat -> firstn (S s) L = firstn s L ++ [nth s L d].
Proof. induction L as [|x L IH]; intros s d H; [simpl in H; lia|]. destruct s; auto. cbn [firstn nth app]. f_equal. apply IH. simpl in H; lia. Qed.
Lemma set_mid : forall {B} (l1 l2 : list B) x y, set (length l1) y (l1 ++ x :: l2) = l1 ++ y :: l2.
Proof. induction l1; intros; simpl; auto. f_equal. auto. Qed.
Lemma set2 : forall L s x y, (S (S s) < length L)%nat ->
  set (S s) x (set (S (S s)) y L) = firstn (S s) L ++ [x; y] ++ skipn (S (S (S s))) L.
Proof.
  intros L s x y H. rewrite (split2 L (S s) None H) at 1. set (f := firstn (S s) L). assert (HF : length f = S s) by (unfold f; rewrite firstn_length; lia).
  cbn [app]. replace (f ++ nth (S s) L None :: nth (S (S s)) L None :: skipn (S (S (S s))) L) with ((f ++ [nth (S s) L None]) ++ nth (S (S s)) L None :: skipn (S (S (S s))) L) by (rewrite <- app_assoc; auto).
  replace (S (S s)) with (length (f ++ [nth (S s) L None])) at 1 by (rewrite app_length, HF; cbn [length]; lia). rewrite set_mid, <- app_assoc. cbn [app].
  rewrite <- HF at 1. rewrite set_mid. auto.
Qed.

Definition free_of (adv : N -> bool) (i : nat) : bool := match i with O => true | S j => adv (N.of_nat j) end.
Lemma drain_b_ok : forall adv s p, G p -> N.of_nat s < p_n p ->
  exists p1 p', drain_b adv p s = Some p1 /\ shift_append p1 = Some p' /\ G p' /\ p_n p' = p_n p /\
  view p' = settle (free_of adv) 0 (firstn (S (S s)) (view p)) ++ skipn (S (S s)) (view p).
Proof.
  intros adv. induction s as [|s IH]; intros p Gp Hs; assert (HL : length (view p) = S (N.to_nat (p_n p))) by apply view_len.
  - exists p. cbn [drain_b]. destruct (gdo p OShiftAppend (settle (free_of adv) 0 (firstn 2 (view p)) ++ skipn 2 (view p)) Gp Logic.I) as (p' & E & G' & En & V).
    { unfold spec. destruct (view p) as [|x [|y r]]; [simpl in HL; lia|simpl in HL; lia|]. cbn. destruct x, y; auto. }
    exists p'. auto.
  - cbn [drain_b]. rewrite !valid_nth by apply Gp. destruct (N.ltb_spec (N.of_nat (S s)) (p_n p)); [|lia]. destruct (N.ltb_spec (N.of_nat s) (p_n p)); [|lia].
    rewrite !Nat2N.id. set (x := nth (S s) (view p) None). set (y := nth (S (S s)) (view p) None).
    assert (KS : settle (free_of adv) 0 (firstn (S (S (S s))) (view p)) =
      let c := ok x && negb (ok y) && adv (N.of_nat s) in settle (free_of adv) 0 (firstn (S s) (view p) ++ [if c then None else x]) ++ [if c then x else y]).
    { rewrite (firstn_snoc _ (S (S s)) None), (firstn_snoc _ (S s) None) by lia. fold x y. rewrite <- app_assoc. cbn [app]. rewrite settle_snoc.
      rewrite firstn_length, Nat.min_l by lia. cbn [Nat.add free_of]. auto. }
    rewrite KS. clear KS. destruct (adv (N.of_nat s) && negb (ok y) && ok x) eqn:EC.
    + replace (ok x && negb (ok y) && adv (N.of_nat s)) with true by (destruct (adv (N.of_nat s)), (ok x), (ok y); auto; discriminate). cbv zeta.
      destruct x as [a|] eqn:EX; [|destruct (adv (N.of_nat s)), (ok y); discriminate].
      destruct (push1_ok p s a Gp Hs EX) as (q & E1 & G1 & En1 & V1). rewrite E1.
      destruct (IH q G1 ltac:(lia)) as (q1 & q' & E2 & E3 & G2 & En2 & V2). exists q1, q'. split; auto. split; auto. split; auto. split; [congruence|].
      rewrite V2, V1, set2 by lia. set (f := firstn (S s) (view p)). assert (HF : length f = S s) by (unfold f; rewrite firstn_length; lia).
      cbn [app]. replace (f ++ None :: Some a :: skipn (S (S (S s))) (view p)) with ((f ++ [None]) ++ Some a :: skipn (S (S (S s))) (view p)) by (rewrite <- app_assoc; auto).
      assert (HF1 : length (f ++ [None]) = S (S s)) by (rewrite app_length, HF; cbn [length]; lia).
      rewrite firstn_app, skipn_app, HF1, Nat.sub_diag. rewrite (firstn_all2 (f ++ [None])), (skipn_all2 (f ++ [None])) by lia. cbn [firstn skipn app]. rewrite app_nil_r, <- app_assoc. auto.
    + replace (ok x && negb (ok y) && adv (N.of_nat s)) with false by (destruct (adv (N.of_nat s)), (ok x), (ok y); auto; discriminate). cbv zeta.
      destruct (IH p Gp ltac:(lia)) as (q1 & q' & E2 & E3 & G2 & En2 & V2). exists q1, q'. split; auto. split; auto. split; auto. split; auto.
      rewrite V2. rewrite (firstn_snoc _ (S s) None) by lia. fold x. rewrite <- app_assoc. f_equal.
      pose proof (split2 (view p) (S s) None ltac:(lia)) as SP. fold x y in SP.
      assert (HF : length (firstn (S s) (view p)) = S s) by (rewrite firstn_length; lia).
      rewrite SP at 1. rewrite skipn_app, HF. rewrite skipn_all2 by lia. replace (S (S s) - S s)%nat with 1%nat by lia. auto.
Qed.

(* What an update does to the cells under a stall of stage k. *)
Definition advance_free L : list (option A) := match L with [] => [] | _ => advance L end.
Definition stall_cells (adv : N -> bool) (k : nat) L : list (option A) :=
  settle (free_of adv) 0 (firstn (k + 2) L) ++ advance_free (skipn (k + 2) L).
Lemma nth_firstn' : forall {B} (l : list B) n i d, nth i (firstn n l) d = if Nat.ltb i n then nth i l d else d.
Proof.
  induction l as [|x l IH]; intros n i d; destruct n as [|n], i as [|i]; cbn [firstn nth]; auto.
  - destruct (Nat.ltb _ _); auto.
  - rewrite IH. auto.
Qed.
Lemma nth_skipn' : forall {B} (l : list B) n i d, nth i (skipn n l) d = nth (n + i) l d.
Proof. induction l; intros n i d; destruct n; cbn [skipn Nat.add]; auto; [destruct i; auto|apply IHl]. Qed.
Lemma nth_removelast' : forall {B} (l : list B) i d, nth i (removelast l) d = if Nat.ltb (S i) (length l) then nth i l d else d.
Proof.
  induction l as [|x l IH]; intros i d; [destruct i; auto|]. destruct l as [|y l]; [destruct i; auto|]. change (removelast (x :: y :: l)) with (x :: removelast (y :: l)). destruct i; auto.
  cbn [nth]. rewrite IH. cbn [length]. destruct (Nat.ltb_spec (S i) (S (length l))), (Nat.ltb_spec (S (S i)) (S (S (length l)))); auto; lia.
Qed.
Lemma list_eq_nth : forall {B} (l m : list B) d, length l = length m -> (forall i, (i < length l)%nat -> nth i l d = nth i m d) -> l = m.
Proof. intros B l m d H K. apply (nth_ext l m d d); auto. Qed.
Lemma removelast_len : forall {B} (l : list B), length (removelast l) = (length l - 1)%nat.
Proof. induction l as [|x [|y l] IH]; auto. change (removelast (x :: y :: l)) with (x :: removelast (y :: l)). cbn [length] in *. rewrite IH. lia. Qed.
Lemma stall_cells_len : forall adv k L, length (stall_cells adv k L) = length L.
Proof.
  intros. unfold stall_cells. rewrite app_length, settle_len, firstn_length.
  assert (length (advance_free (skipn (k + 2) L)) = length L - (k + 2))%nat. { rewrite <- skipn_length. destruct (skipn (k + 2) L) as [|x t]; auto. unfold advance_free, advance. change (length (None :: removelast (x :: t))) with (S (length (removelast (x :: t)))). rewrite removelast_len. simpl. lia. }
  lia.
Qed.

Lemma drain_ok : forall l k, G (l_pipe l) -> N.of_nat k < p_n (l_pipe l) -> l_adv l (N.of_nat k) = false ->
  exists p', drain l (inc32 (N.of_nat k)) = Some p' /\ G p' /\ p_n p' = p_n (l_pipe l) /\ view p' = stall_cells (l_adv l) k (view (l_pipe l)).
Proof.
  intros l k Gp Hk HA. set (p := l_pipe l) in *. unfold drain. fold p. set (last := (N.to_nat (p_n p) - 1)%nat).
  assert (HN : p_n p < 2 ^ 31) by (apply n_small, Gp). assert (HN1 : 1 <= p_n p) by (destruct Gp as [I _ _]; destruct I; auto).
  rewrite inc_s by lia. assert (HL : length (view p) = S (N.to_nat (p_n p))) by apply view_len.
  rewrite valid_nth by apply Gp. destruct (N.ltb_spec (N.of_nat last) (p_n p)); [|lia]. rewrite Nat2N.id.
  destruct (N.leb_spec (N.of_nat k + 1) (N.of_nat last)) as [H1|H1]; cbn [andb].
  - set (P := fun p1 => G p1 /\ p_n p1 = p_n p /\ view p1 = set (S last) None (view p)).
    assert (KP : exists p1, (if ok (nth (S last) (view p) None) then invalidate p (N.of_nat last) else Some p) = Some p1 /\ P p1).
    { destruct (nth (S last) (view p) None) as [a|] eqn:EA; cbn [ok].
      - destruct (gdo p (OInvalidate (N.of_nat last)) (set (S last) None (view p)) Gp Logic.I) as (p1 & E1 & G1 & En1 & V1).
        { unfold spec. rewrite len_n. destruct (N.ltb_spec (N.of_nat last) (p_n p)); [|lia]. rewrite Nat2N.id, (nth_error_nth' _ None) by lia. rewrite EA. auto. }
        exists p1. split; auto. split; auto.
      - exists p. split; auto. split; auto. split; auto. apply (list_eq_nth _ _ None); [rewrite set_len; auto|]. intros i Hi.
        rewrite set_nth' by lia. destruct (Nat.eqb_spec i (S last)) as [->|]; auto. }
    destruct KP as (p1 & E1 & G1 & En1 & V1). rewrite E1. replace (N.of_nat k + 1) with (N.of_nat (S k)) by lia.
    destruct (drain_a_ok last p1 (S k) G1 ltac:(lia)) as (p2 & E2 & G2 & En2 & V2); [rewrite V1, set_nth' by lia; rewrite Nat.eqb_refl; auto|lia|].
    rewrite E2. destruct (drain_b_ok (l_adv l) (S k) p2 G2 ltac:(lia)) as (p3 & p' & E3 & E4 & G3 & En3 & V3). rewrite E3. exists p'. split; auto. split; auto. split; [congruence|].
    rewrite V3. unfold stall_cells. replace (k + 2)%nat with (S (S k)) by lia.
    assert (HL2 : length (view p2) = S (N.to_nat (p_n p))) by (rewrite view_len; congruence).
    assert (EF : firstn (S (S (S k))) (view p2) = firstn (S (S k)) (view p) ++ [None]).
    { rewrite (firstn_snoc _ (S (S k)) None) by lia. rewrite V2, Nat.eqb_refl. f_equal. apply (list_eq_nth _ _ None); [rewrite !firstn_length; lia|].
      intros i Hi. rewrite firstn_length in Hi. rewrite !nth_firstn'. destruct (Nat.ltb_spec i (S (S k))); [|lia]. rewrite V2.
      destruct (Nat.eqb_spec i (S (S k))); [lia|]. destruct (Nat.ltb_spec (S (S k)) i); [lia|]. cbn [andb]. rewrite V1, set_nth' by lia.
      destruct (Nat.eqb_spec i (S last)); [lia|auto]. }
    assert (ES : advance_free (skipn (S (S k)) (view p)) = None :: skipn (S (S (S k))) (view p2)).
    { assert (HS : length (skipn (S (S k)) (view p)) = (last - k)%nat) by (rewrite skipn_length; lia).
      assert (HS2 : length (skipn (S (S (S k))) (view p2)) = (last - k - 1)%nat) by (rewrite skipn_length; lia).
      destruct (skipn (S (S k)) (view p)) as [|x t] eqn:EK; [simpl in HS; lia|]. unfold advance_free, advance. f_equal.
      apply (list_eq_nth _ _ None); [rewrite removelast_len; lia|]. intros i Hi. rewrite removelast_len in Hi.
      rewrite nth_removelast'. destruct (Nat.ltb_spec (S i) (length (x :: t))); [|lia]. rewrite <- EK, !nth_skipn'. rewrite V2.
      destruct (Nat.eqb_spec (S (S (S k)) + i) (S (S k))); [lia|]. destruct (Nat.ltb_spec (S (S k)) (S (S (S k)) + i)); [|lia].
      destruct (Nat.leb_spec (S (S (S k)) + i) (S last)); [|lia]. cbn [andb]. rewrite V1, set_nth' by lia.
      destruct (Nat.eqb_spec (S (S (S k)) + i - 1) (S last)); [lia|]. f_equal. }
    rewrite EF, ES. rewrite (firstn_snoc _ (S k) None) by lia. rewrite <- app_assoc. cbn [app]. rewrite settle_snoc. rewrite firstn_length, Nat.min_l by lia.
    cbn [Nat.add free_of]. rewrite HA, andb_false_r. cbv zeta. rewrite <- app_assoc. auto.
  - assert (k = last) by lia. subst k. replace (drain_a p last (N.of_nat last + 1)) with (Some (p, last)).
    2:{ clearbody last. destruct last as [|m]; auto. cbn [drain_a]. destruct (N.ltb_spec (N.of_nat (S m) + 1) (N.of_nat (S m))); [lia|auto]. }
    destruct (drain_b_ok (l_adv l) last p Gp ltac:(lia)) as (p3 & p' & E3 & E4 & G3 & En3 & V3). rewrite E3. exists p'. split; auto. split; auto. split; auto.
    rewrite V3. unfold stall_cells. replace (last + 2)%nat with (S (S last)) by lia. f_equal. rewrite skipn_all2 by lia. auto.
Qed.
End P.
