(** What squashing does to the tree. *)
From Coq Require Import List NArith Arith Bool Lia Sorting.Sorted.
From Verif Require Import LayoutModel ArchDataModel StorageModel CkptModel CkptTree CkptOps SquashModel.
Import ListNotations.
Open Scope N_scope.

Definition keys_lt (a b : N * node) : Prop := fst a < fst b /\ n_tick (snd a) <= n_tick (snd b).
(** A walk back to the head, in order of creation. *)
Record walk (l : nodes) (h x : N) (ch : nodes) : Prop := mkWalk {
  wk_get : forall q, In q ch -> get (fst q) l = Some (snd q);
  wk_top : forall q, In q ch -> fst q <= x;
  wk_last : In x (map fst ch);
  wk_head : exists hn r, ch = (h, hn) :: r;
  wk_sorted : StronglySorted keys_lt ch;
  wk_prev : forall y n, In (y, n) ch -> y = h \/ exists p, n_prev n = Some p /\ In p (map fst ch);
  wk_next : forall y, In y (map fst ch) -> y = x \/ exists z m, In (z, m) ch /\ n_prev m = Some y }.

Lemma SS_last : forall (A : Type) (R : A -> A -> Prop) l x, StronglySorted R l -> (forall y, In y l -> R y x) -> StronglySorted R (l ++ [x]).
Proof.
  intros A R l x H. induction H as [|a l H IH F]; intros B; cbn [app]; [repeat constructor|]. constructor.
  - apply IH. intros y Hy. apply B. right. exact Hy.
  - rewrite Forall_forall in *. intros y Hy. apply in_app_or in Hy. destruct Hy as [Hy|[<-|[]]]; [auto|]. apply B. left. reflexivity.
Qed.
Lemma walk_ok : forall l h c nx, TI l h c nx -> forall f x n, (below x l < f)%nat -> get x l = Some n ->
  exists ch, prev_chain (S f) l (Some x) = Done (rev ch) /\ walk l h x ch /\ exists ch', ch = ch' ++ [(x, n)].
Proof.
  intros l h c nx T. induction f as [|f IH]; intros x n B G; [lia|].
  assert (DX : deref x l = Done n) by (unfold deref; rewrite G; reflexivity).
  remember (S f) as f1 eqn:EF. cbn [prev_chain]. rewrite DX. cbn [obind]. subst f1. destruct (N.eq_dec x h) as [->|XH].
  - destruct (ti_head _ _ _ _ T) as [hn [H1 [H2 _]]]. assert (hn = n) by congruence. subst hn. rewrite H2. cbn [prev_chain obind].
    exists [(h, n)]. split; [reflexivity|]. split; [|exists []; reflexivity]. constructor.
    + intros q [<-|[]]. exact G.
    + intros q [<-|[]]. cbn [fst]. lia.
    + left. reflexivity.
    + eauto.
    + repeat constructor.
    + intros y m [E|[]]. injection E as <- _. left. reflexivity.
    + intros y [<-|[]]. left. reflexivity.
  - destruct (ti_prev _ _ _ _ T x n G XH) as [p [pn [P1 [P2 [P3 [P4 _]]]]]]. rewrite P1. pose proof (below_lt p x l P3 (get_key _ _ _ P2)) as BL.
    destruct (IH p pn) as [ch [R1 [W [ch' E]]]]; [lia|exact P2|]. rewrite R1. cbn [obind]. exists (ch ++ [(x, n)]).
    split; [rewrite rev_app_distr; reflexivity|]. split; [|eauto]. destruct W as [W1 W2 W3 W4 W5 W6 W7]. constructor.
    + intros q Hq. apply in_app_or in Hq. destruct Hq as [Hq|[<-|[]]]; [auto|exact G].
    + intros q Hq. apply in_app_or in Hq. destruct Hq as [Hq|[<-|[]]]; [specialize (W2 q Hq); lia|cbn [fst]; lia].
    + rewrite map_app. apply in_or_app. right. left. reflexivity.
    + destruct W4 as [hn [r ->]]. exists hn, (r ++ [(x, n)]). reflexivity.
    + apply SS_last; [exact W5|]. intros q Hq. unfold keys_lt. cbn [fst snd]. specialize (W2 q Hq). split; [lia|].
      subst ch. apply N.le_trans with (n_tick pn); [|exact P4]. clear - W5 Hq. apply in_app_or in Hq. destruct Hq as [Hq|[<-|[]]]; [|cbn [snd]; lia].
      revert W5 Hq. induction ch' as [|z r IH]; intros S0 Hq; [destruct Hq|]. cbn [app] in S0. inversion S0 as [|? ? S1 S2]; subst.
      destruct Hq as [<-|Hq]; [|apply IH; assumption]. rewrite Forall_forall in S2. apply (S2 (p, pn)). apply in_or_app. right. left. reflexivity.
    + intros y m Hq. apply in_app_or in Hq. destruct Hq as [Hq|[Hq|[]]].
      * destruct (W6 y m Hq) as [->|[q [Q1 Q2]]]; [left; reflexivity|]. right. exists q. split; [exact Q1|]. rewrite map_app. apply in_or_app. left. exact Q2.
      * injection Hq as <- <-. right. exists p. split; [exact P1|]. rewrite map_app. apply in_or_app. left. exact W3.
    + intros y Hy. rewrite map_app in Hy. apply in_app_or in Hy. destruct Hy as [Hy|[<-|[]]]; [|left; reflexivity]. right.
      destruct (W7 y Hy) as [->|[z [m [Z1 Z2]]]]; [exists x, n|exists z, m]; (split; [apply in_or_app|assumption]); [right; left; reflexivity|left; exact Z1].
Qed.

(** The walk from [x] splits at the last snapshot [s]. *)
Record split_at (l : nodes) (h x s : N) (rest st : nodes) : Prop := mkSplit {
  sp_walk : walk l h x (rest ++ st);
  sp_s : exists sn st', st = (s, sn) :: st' /\ n_snap sn = true /\
    (forall y n, In (y, n) st' -> n_snap n = false /\ exists p, n_prev n = Some p /\ In p (map fst st)) /\
    (rest <> [] -> exists p pn, n_prev sn = Some p /\ In (p, pn) rest);
  sp_x : In x (map fst st);
  sp_rest : forall y n, In (y, n) rest -> y = h \/ exists p, n_prev n = Some p /\ In p (map fst rest);
  sp_head : rest = [] -> s = h;
  sp_head' : rest <> [] -> exists hn r, rest = (h, hn) :: r }.
Lemma split_ok : forall l h c nx, TI l h c nx -> forall f x n, (below x l < f)%nat -> get x l = Some n ->
  exists rest st s, prev_chain (S f) l (Some x) = Done (rev (rest ++ st)) /\ restore_chain f l x = Done (map fst st) /\ split_at l h x s rest st.
Proof.
  intros l h c nx T. induction f as [|f IH]; intros x n B G; [lia|].
  assert (DX : deref x l = Done n) by (unfold deref; rewrite G; reflexivity).
  destruct (walk_ok _ _ _ _ T (S f) x n B G) as [ch [E1 [W [ch' E2]]]]. cbn [restore_chain]. rewrite DX. cbn [obind]. destruct (n_snap n) eqn:SN.
  - exists ch', [(x, n)], x. subst ch. split; [exact E1|]. split; [reflexivity|]. constructor; [exact W| | | | | ].
    + exists n, []. split; [reflexivity|]. split; [exact SN|]. split; [intros y m []|]. intros NE.
      destruct (wk_prev _ _ _ _ W x n) as [->|[p [P1 P2]]]; [apply in_or_app; right; left; reflexivity| |].
      * exfalso. destruct (wk_head _ _ _ _ W) as [hn [r HR]]. pose proof (wk_sorted _ _ _ _ W) as SO. destruct ch' as [|z r']; [congruence|].
        cbn [app] in HR, SO. injection HR as -> _. inversion SO as [|? ? _ F]; subst. rewrite Forall_forall in F.
        destruct (F (h, n)) as [F1 _]; [apply in_or_app; right; left; reflexivity|]. cbn [fst] in F1. lia.
      * exists p. rewrite map_app in P2. apply in_app_or in P2. destruct P2 as [P2|[<-|[]]].
        -- apply in_map_iff in P2. destruct P2 as [[p' pn] [E P2]]. cbn [fst] in E. subst p'. eauto.
        -- exfalso. destruct (N.eq_dec x h) as [->|XH].
           ++ destruct (ti_head _ _ _ _ T) as [hn [H1 [H2 _]]]. congruence.
           ++ destruct (ti_prev _ _ _ _ T x n G XH) as [q [qn [Q1 [Q2 [Q3 _]]]]]. cbn [fst] in P1. assert (q = x) by congruence. lia.
    + left. reflexivity.
    + intros y m Hy. destruct (wk_prev _ _ _ _ W y m) as [->|[p [P1 P2]]]; [apply in_or_app; left; exact Hy|left; reflexivity|]. right. exists p. split; [exact P1|].
      rewrite map_app in P2. apply in_app_or in P2. destruct P2 as [P2|[<-|[]]]; [exact P2|]. exfalso. cbn [fst] in P1.
      pose proof (wk_get _ _ _ _ W (y, m) (in_or_app _ _ _ (or_introl Hy))) as Gy. cbn [fst snd] in Gy.
      destruct (N.eq_dec y h) as [->|YH].
      * destruct (ti_head _ _ _ _ T) as [hn [H1 [H2 _]]]. congruence.
      * destruct (ti_prev _ _ _ _ T y m Gy YH) as [q [qn [Q1 [Q2 [Q3 _]]]]]. assert (q = x) by congruence. subst q.
        pose proof (wk_top _ _ _ _ W (y, m) (in_or_app _ _ _ (or_introl Hy))) as TP. cbn [fst] in TP. lia.
    + intros ->. destruct (wk_head _ _ _ _ W) as [hn [r HR]]. cbn [app] in HR. congruence.
    + intros NE. destruct (wk_head _ _ _ _ W) as [hn [r HR]]. destruct ch' as [|z r']; [congruence|]. cbn [app] in HR. injection HR as -> _. eauto.
  - assert (XH : x <> h). { intros ->. destruct (ti_head _ _ _ _ T) as [hn [H1 [_ H2]]]. congruence. }
    destruct (ti_prev _ _ _ _ T x n G XH) as [p [pn [P1 [P2 [P3 [P4 _]]]]]]. pose proof (below_lt p x l P3 (get_key _ _ _ P2)) as BL.
    destruct (IH p pn) as [rest [st [s [F1 [F2 F3]]]]]; [lia|exact P2|]. rewrite P1, F2. cbn [obind]. exists rest, (st ++ [(x, n)]), s.
    assert (EC : ch = rest ++ st ++ [(x, n)]).
    { clear - E1 DX P1 F1. remember (S f) as f1 eqn:EF. cbn [prev_chain] in E1. rewrite DX in E1. cbn [obind] in E1. rewrite P1, F1 in E1. cbn [obind] in E1.
      injection E1 as E1. rewrite app_assoc. rewrite <- (rev_involutive ch), <- E1. cbn [rev]. rewrite rev_involutive. reflexivity. }
    split; [rewrite <- EC; exact E1|]. split; [rewrite map_app; reflexivity|]. destruct F3 as [S1 S2 S3 S4 S5 S6]. constructor; auto.
    + rewrite <- EC. exact W.
    + destruct S2 as [sn [st' [-> [S21 [S22 S23]]]]]. exists sn, (st' ++ [(x, n)]). split; [reflexivity|]. split; [exact S21|]. split; [|exact S23].
      intros y m Hy. apply in_app_or in Hy. destruct Hy as [Hy|[Hy|[]]].
      * destruct (S22 y m Hy) as [Y1 [q [Q1 Q2]]]. split; [exact Y1|]. exists q. split; [exact Q1|]. rewrite map_app. apply in_or_app. left. exact Q2.
      * injection Hy as <- <-. split; [exact SN|]. exists p. split; [exact P1|]. rewrite map_app. apply in_or_app. left. exact S3.
    + rewrite map_app. apply in_or_app. right. left. reflexivity.
Qed.

(** Destroying checkpoints that no other one hangs off. *)
Definition same_node (m n : node) : Prop := n_tick m = n_tick n /\ n_dead m = n_dead n /\ n_snap m = n_snap n /\ n_data m = n_data n.
Lemma erase_all_ok : forall xs l h c nx, TI l h c nx -> NoDup xs -> (forall x, In x xs -> In x (keysn l)) -> ~ In h xs -> ~ In c xs ->
  (forall y n p, get y l = Some n -> ~ In y xs -> n_prev n = Some p -> ~ In p xs) ->
  exists l', erase_all xs l = Done l' /\ TI l' h c nx /\ flags l' = filter (fun q => negb (mem (fst q) xs)) (flags l) /\
    forall y n, get y l = Some n -> ~ In y xs -> exists n', get y l' = Some n' /\ n_prev n' = n_prev n /\ same_node n' n.
Proof.
  induction xs as [|x xs IH]; intros l h c nx T ND KS HH HC CL; cbn [erase_all].
  - exists l. split; [reflexivity|]. split; [exact T|]. split.
    + cbn [mem negb]. generalize (flags l). induction l0 as [|q r I]; cbn [filter]; congruence.
    + intros y n G _. exists n. split; [exact G|]. split; [reflexivity|]. repeat split.
  - inversion ND as [|? ? N1 N2]; subst. destruct (key_get x l (KS x (or_introl eq_refl))) as [n G].
    assert (XH : x <> h) by (intros ->; apply HH; left; reflexivity). assert (XC : x <> c) by (intros ->; apply HC; left; reflexivity).
    destruct (erase_ok l h c nx x n T G XH XC) as [l1 [p [P1 [E1 [T1 [F1 G1]]]]]]. rewrite E1. cbn [obind].
    assert (SM : forall y m, get y l = Some m -> ~ In y (x :: xs) -> exists m', get y l1 = Some m' /\ n_prev m' = n_prev m /\ same_node m' m).
    { intros y m Gy NY. rewrite G1, Gy. destruct (N.eqb_spec y x) as [->|YX]; [exfalso; apply NY; left; reflexivity|]. cbn [option_map].
      eexists. split; [reflexivity|]. split; [|repeat split]. cbn [erased n_prev]. destruct (mem y (n_nexts n)) eqn:M; [|reflexivity].
      apply mem_in in M. destruct (ti_nexts _ _ _ _ T x n y G M) as [yn [Y1 Y2]]. exfalso. apply (CL y yn x Y1 NY Y2). left. reflexivity. }
    destruct (IH l1 h c nx T1 N2) as [l' [E2 [T2 [F2 G2]]]].
    + intros y Hy. destruct (key_get y l (KS y (or_intror Hy))) as [m Gy]. apply (get_key y l1 (erased x p (n_nexts n) y m)).
      rewrite G1, Gy. destruct (N.eqb_spec y x) as [->|]; [contradiction|reflexivity].
    + intros I. apply HH. right. exact I.
    + intros I. apply HC. right. exact I.
    + intros y m q Gy NY Q. destruct (N.eq_dec y x) as [->|YX]; [rewrite G1, N.eqb_refl in Gy; discriminate|].
      assert (NY' : ~ In y (x :: xs)) by (intros [E|I]; [congruence|contradiction]).
      destruct (get y l) as [m0|] eqn:G0; [|rewrite G1, G0 in Gy; destruct (y =? x); discriminate].
      destruct (SM y m0 G0 NY') as [m' [M1 [M2 _]]]. assert (m' = m) by congruence. subst m'. intros I. apply (CL y m0 q G0 NY'); [congruence|right; exact I].
    + exists l'. split; [exact E2|]. split; [exact T2|]. split.
      * rewrite F2, F1, filter_filter. apply filter_ext_in'. intros q _. cbn [mem]. rewrite negb_orb, (N.eqb_sym x). reflexivity.
      * intros y m Gy NY. destruct (SM y m Gy NY) as [m1 [M1 [M2 [M3 [M4 [M5 M6]]]]]]. destruct (G2 y m1 M1) as [m2 [Q1 [Q2 [Q3 [Q4 [Q5 Q6]]]]]]; [intros I; apply NY; right; exact I|].
        exists m2. split; [exact Q1|]. split; [congruence|]. repeat split; congruence.
Qed.
