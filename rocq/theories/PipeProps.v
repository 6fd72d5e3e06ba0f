(** Property C24: sparta::Pipe. *)
From Coq Require Import List NArith Arith Bool Lia.
From Verif Require Import MathUtilsModel QueueProofs PipeModel PipeProofs.
Import ListNotations.
Open Scope N_scope.

Section SPEC.
Context {A : Type}.
Implicit Types (p : pipe A) (L : list (option A)).

(* What the calls should do to the cells, append slot first, then stage 0, 1, ...; [own]: the pipe updates
   itself; [sched]: its update is pending; None: the call is not legal. *)
Definition advance L : list (option A) := None :: removelast L.
Definition spec (own sched : bool) L (o : pop A) : option (list (option A)) :=
  let n := (N.of_nat (length L) - 1)%N in
  match o with
  | OAppend a => match L with None :: r => Some (Some a :: r) | _ => None end
  | OWrite s a => if s <? n then Some (set (S (N.to_nat s)) (Some a) L) else None
  | OInvalidate s => if s <? n then match nth_error L (S (N.to_nat s)) with
                                    | Some (Some _) => Some (set (S (N.to_nat s)) None L) | _ => None end
                     else None
  | OFlush s => if s <? n then Some (set (S (N.to_nat s)) None L) else None
  | OFlushAppend => Some (None :: tl L)
  | OFlushAll | OClear => Some (map (fun _ => None) L)
  | OFlushIf pr => Some (map (fun c => match c with Some a => if pr a then None else Some a | None => None end) L)
  | OUpdate => if own then None else Some (advance L)
  | OShiftAppend => match L with Some a :: None :: r => Some (None :: Some a :: r) | _ => Some L end
  | OOwn => Some L
  | OFire => if sched then Some (advance L) else Some L
  end.

Definition cnt (l : list (option A)) : nat := length (filter ok l).
Definition NVI p : Prop := p_nv p = N.of_nat (cnt (tl (view p))).
(* The predicate of a flushIf does not hold of the datum in the append slot. *)
Definition safe p (o : pop A) : Prop :=
  match o with OFlushIf pr => forall a, appended p = Some a -> pr a = false | _ => True end.
Definition PEND p : Prop := p_own p = true -> (exists a, In (Some a) (view p)) -> p_sched p = true.

Lemma cnt_set : forall L j x, (j < length L)%nat ->
  (cnt (set j x L) + (if ok (nth j L None) then 1 else 0) = cnt L + (if ok x then 1 else 0))%nat.
Proof.
  induction L as [|y L IH]; intros j x H; [simpl in H; lia|]. destruct j; unfold cnt in *; cbn [set nth filter].
  - destruct (ok x), (ok y); cbn [length]; lia.
  - specialize (IH j x ltac:(simpl in H; lia)). destruct (ok y); cbn [length]; lia.
Qed.
Lemma cnt_le : forall L, (cnt L <= length L)%nat.
Proof. intros. unfold cnt. induction L; simpl; auto. destruct (ok a); simpl; lia. Qed.
Lemma dec_s : forall c, c < 2 ^ 32 -> 0 < c -> dec32 c = c - 1.
Proof.
  intros. unfold dec32. replace (c + 2 ^ 32 - 1) with (c - 1 + 1 * 2 ^ 32) by lia. rewrite N.mod_add by lia. apply N.mod_small; lia.
Qed.
Lemma inc_s : forall c, c + 1 < 2 ^ 32 -> inc32 c = c + 1.
Proof. intros. unfold inc32. apply N.mod_small; auto. Qed.
Lemma iter_dec : forall k c, c < 2 ^ 32 -> N.of_nat k <= c -> N.iter (N.of_nat k) dec32 c = c - N.of_nat k.
Proof.
  induction k; intros c H K; [simpl; lia|]. rewrite Nat2N.inj_succ in *. rewrite N.iter_succ, IHk by lia. rewrite dec_s by lia. lia.
Qed.

Definition good p p' o : Prop :=
  PI p' /\ p_n p' = p_n p /\ (NVI p -> safe p o -> NVI p') /\ (NVI p -> safe p o -> PEND p -> PEND p').

Lemma view_hd : forall p, exists l, view p = appended p :: l /\ length l = N.to_nat (p_n p).
Proof. intros. unfold view. eexists. split; eauto. rewrite map_length, seq_length. auto. Qed.
Lemma tl_set : forall {B} j (x : B) l, tl (set (S j) x l) = set j x (tl l).
Proof. destruct l; auto. destruct j; auto. Qed.
Lemma set_in : forall j x L y, In y (set j x L) -> y = x \/ In y L.
Proof. induction j; destruct L; simpl; intros; intuition. apply IHj in H0. intuition. Qed.
Lemma at_nth : forall p s, PI p -> s < p_n p ->
  nth (N.to_nat s) (tl (view p)) None = p_slots p (ix (p_phys p) (phys_append p) (s + 1)) /\
  nth_error (view p) (S (N.to_nat s)) = Some (p_slots p (ix (p_phys p) (phys_append p) (s + 1))).
Proof.
  intros p s I H. pose proof (nth_view p (S (N.to_nat s)) I ltac:(lia)) as E. unfold at_ in E.
  replace (N.of_nat (S (N.to_nat s))) with (s + 1) in E by lia. split; auto.
  destruct (view_hd p) as (l & EV & _). rewrite EV in *. cbn [tl nth_error] in *. apply nth_error_nth; auto.
Qed.

Lemma set_stage : forall p s x nv sc own, PI p -> s < p_n p ->
  let p' := with_slots p (upd (p_slots p) (ix (p_phys p) (phys_append p) (s + 1)) x) nv own sc in
  PI p' /\ view p' = set (S (N.to_nat s)) x (view p) /\
  (cnt (tl (view p')) + (if ok (p_slots p (ix (p_phys p) (phys_append p) (s + 1))) then 1 else 0) = cnt (tl (view p)) + (if ok x then 1 else 0))%nat.
Proof.
  intros p s x nv sc own I H p'. destruct (with_upd p (S (N.to_nat s)) x nv own sc I ltac:(lia)) as [I' E].
  replace (N.of_nat (S (N.to_nat s))) with (s + 1) in * by lia. fold p' in I', E. split; auto. split; auto.
  rewrite E, tl_set. destruct (at_nth p s I H) as [EN _]. rewrite <- EN. apply cnt_set.
  destruct (view_hd p) as (l & EV & HL). rewrite EV. cbn [tl]. lia.
Qed.
Lemma cnt_pos : forall L j, ok (nth j L None) = true -> (0 < cnt L)%nat.
Proof.
  induction L; destruct j; unfold cnt in *; simpl; intros; try discriminate; destruct (ok a) eqn:E; simpl; try lia; try congruence. eauto.
Qed.
Lemma cnt_n : forall p, (cnt (tl (view p)) <= N.to_nat (p_n p))%nat.
Proof. intros. destruct (view_hd p) as (l & -> & H). cbn [tl]. rewrite <- H. apply cnt_le. Qed.
Lemma n_small : forall p, PI p -> p_n p < 2 ^ 31.
Proof. intros p I. destruct I. pose proof (vs_bound _ P_pow). destruct P_pow as (k & Hk & E). assert (2 ^ k <= 2 ^ 31) by (apply N.pow_le_mono_r; lia). lia. Qed.
Lemma cnt_in : forall L, (0 < cnt L)%nat <-> exists a, In (Some a) L.
Proof.
  intros. unfold cnt. induction L as [|y L IH]; simpl; [split; [lia|intros (a & [])]|]. destruct y as [a|]; simpl.
  - split; [exists a; auto|lia].
  - rewrite IH. split; intros (b & Hb); exists b; auto. destruct Hb; [discriminate|auto].
Qed.
Lemma len_n : forall p, N.of_nat (length (view p)) - 1 = p_n p.
Proof. intros. rewrite view_len. lia. Qed.

Lemma cnt_shift : forall x (l : list (option A)), l <> [] ->
  (cnt (removelast (x :: l)) + (if ok (last l None) then 1 else 0) = cnt l + (if ok x then 1 else 0))%nat.
Proof.
  intros x l Hl. destruct (exists_last Hl) as (m & y & ->). rewrite last_last.
  change (x :: m ++ [y]) with ((x :: m) ++ [y]). rewrite removelast_last. unfold cnt. rewrite filter_app, app_length. cbn [filter].
  destruct (ok x), (ok y); cbn [length]; lia.
Qed.
Lemma last_cons : forall (x : option A) l, l <> [] -> last (x :: l) None = last l None.
Proof. destruct l; auto. contradiction. Qed.

Lemma internal_good : forall p sc, PI p -> exists p', internal_update p sc = Some p' /\ view p' = advance (view p) /\
  PI p' /\ p_n p' = p_n p /\ (NVI p -> NVI p') /\ (NVI p -> PEND p').
Proof.
  intros p sc I. destruct (internal_ok p sc I) as (p' & E & I' & EV & En & Eo & Env & Es). exists p'. split; auto. split; auto. split; auto. split; auto.
  assert (NV : NVI p -> NVI p').
  { intros H. unfold NVI in *. rewrite Env, EV. cbn [tl]. pose proof (n_small p I). pose proof (cnt_n p).
    destruct (view_hd p) as (l & EL & HL). rewrite EL in *. assert (l <> []) by (destruct l; [simpl in HL; destruct I; lia|discriminate]).
    rewrite last_cons by auto. cbn [tl] in *. pose proof (cnt_shift (appended p) l ltac:(auto)) as K. rewrite H.
    destruct (ok (last l None)) eqn:E1, (ok (appended p)) eqn:E2; cbn zeta.
    - assert (0 < cnt l)%nat. { destruct (exists_last H2) as (m & y & ->). rewrite last_last in E1. unfold cnt. rewrite filter_app, app_length. cbn [filter]. rewrite E1. simpl. lia. }
      rewrite dec_s by lia. rewrite inc_s by lia. lia.
    - rewrite dec_s by lia. lia.
    - rewrite inc_s by lia. lia.
    - lia. }
  split; auto. intros H Ho (a & Ha). specialize (NV H). rewrite Es, <- Eo, Ho. rewrite andb_true_r.
  assert (0 < cnt (tl (view p')))%nat. { apply cnt_in. exists a. rewrite EV in *. cbn [tl]. destruct Ha as [Ha|Ha]; [discriminate|auto]. }
  unfold NVI in NV. destruct (N.ltb_spec 0 (p_nv p')); [apply orb_true_r|lia].
Qed.

Lemma hits_len : forall pr l (f : N -> option A), length (filter (fun i => hit pr (f i)) l) = cnt (map (fun i => if hit pr (f i) then f i else None) l).
Proof.
  induction l; intros; auto. cbn [filter map]. unfold cnt in *. cbn [filter]. destruct (f a) eqn:E; simpl; auto. destruct (pr a0); simpl; auto.
Qed.
Lemma cnt_hits : forall pr L, (length (filter (hit pr) L) + cnt (map (drop pr) L) = cnt L)%nat.
Proof. unfold cnt. induction L as [|[a|] L IH]; auto. simpl. destruct (pr a); simpl; lia. Qed.
Lemma filter_map_len : forall {B C} (f : B -> C) g l, length (filter (fun i => g (f i)) l) = length (filter g (map f l)).
Proof. induction l; simpl; auto. destruct (g (f a)); simpl; auto. Qed.

Ltac nrm := repeat match goal with
  | H : context [with_slots ?p ?f ?nv (p_own ?p) (p_sched ?p || p_own ?p)] |- _ =>
      change (with_slots p f nv (p_own p) (p_sched p || p_own p)) with (resched p f nv) in H
  | H : context [with_slots ?p ?f ?nv (p_own ?p) (p_sched ?p)] |- _ =>
      change (with_slots p f nv (p_own p) (p_sched p)) with (quiet p f nv) in H end.
Lemma step_spec : forall p o, PI p ->
  match step p o, spec (p_own p) (p_sched p) (view p) o with
  | Some p', Some L' => view p' = L' /\ good p p' o
  | None, None => True
  | _, _ => False end.
Proof.
  intros p o I. pose proof (n_small p I) as HN. pose proof (cnt_n p) as HC. destruct (view_hd p) as (l & EV & HL).
  assert (HA : ix (p_phys p) (phys_append p) (N.of_nat 0) = phys_append p) by (apply ix_0, app_lt; auto).
  destruct o as [a|s a|s|s| | |pr| | | | |]; unfold spec; try rewrite len_n; cbn [step].
  - unfold append. rewrite EV. destruct (appended p) as [b|] eqn:EA; [exact Logic.I|]. cbn [ok].
    destruct (with_upd p 0 (Some a) (p_nv p) (p_own p) (p_sched p || p_own p) I ltac:(lia)) as [I' E'].
    rewrite HA in I', E'. nrm.
    rewrite E', EV. cbn [set]. split; auto. split; auto. split; auto. split.
    + intros H _. unfold NVI in *. rewrite E', EV. cbn [set tl resched p_nv]. rewrite H, EV. reflexivity.
    + intros H _ _ Ho _. cbn in *. rewrite Ho. apply orb_true_r.
  - unfold write. destruct (N.ltb_spec s (p_n p)) as [Hs|Hs]; [|rewrite stage_out by auto; exact Logic.I].
    rewrite stage_ix by auto. cbv zeta. match goal with |- context [resched p ?f ?nv] => destruct (set_stage p s (Some a) nv (p_sched p || p_own p) (p_own p) I Hs) as (I' & E' & C'); change (with_slots p f nv (p_own p) (p_sched p || p_own p)) with (resched p f nv) in * end.
    split; [exact E'|]. split; auto. split; auto. split.
    + set (q := resched p _ _) in *. intros H _. unfold NVI in *. unfold q at 1. cbn [resched p_nv]. rewrite H. cbn [ok] in C'. pose proof (cnt_n q) as HC'. change (p_n q) with (p_n p) in HC'.
      destruct (ok (p_slots p _)) eqn:EO.
      * pose proof (cnt_pos (tl (view p)) (N.to_nat s)) as K. rewrite (proj1 (at_nth p s I Hs)) in K. specialize (K EO).
        rewrite dec_s by lia. rewrite inc_s by lia. lia.
      * rewrite inc_s by lia. lia.
    + intros H _ _ Ho _. cbn in *. rewrite Ho. apply orb_true_r.
  - unfold invalidate. destruct (N.ltb_spec s (p_n p)) as [Hs|Hs]; [|rewrite stage_out by auto; exact Logic.I].
    rewrite stage_ix by auto. rewrite (proj2 (at_nth p s I Hs)). destruct (p_slots p _) as [b|] eqn:EO; [|exact Logic.I]. cbn [ok].
    match goal with |- context [resched p ?f ?nv] => destruct (set_stage p s None nv (p_sched p || p_own p) (p_own p) I Hs) as (I' & E' & C'); change (with_slots p f nv (p_own p) (p_sched p || p_own p)) with (resched p f nv) in * end.
    split; [exact E'|]. split; auto. split; auto. split.
    + set (q := resched p _ _) in *. intros H _. unfold NVI in *. rewrite EO in C'. cbn [ok] in C'. unfold q at 1. cbn [resched p_nv]. rewrite H.
      pose proof (cnt_pos (tl (view p)) (N.to_nat s)) as K. rewrite (proj1 (at_nth p s I Hs)), EO in K. specialize (K eq_refl).
      rewrite dec_s by lia. lia.
    + intros H _ _ Ho _. cbn in *. rewrite Ho. apply orb_true_r.
  - unfold flush. destruct (N.ltb_spec s (p_n p)) as [Hs|Hs]; [|rewrite stage_out by auto; exact Logic.I].
    rewrite stage_ix by auto. match goal with |- context [quiet p ?f ?nv] => destruct (set_stage p s None nv (p_sched p) (p_own p) I Hs) as (I' & E' & C'); change (with_slots p f nv (p_own p) (p_sched p)) with (quiet p f nv) in * end.
    split; [exact E'|]. split; auto. split; auto. split.
    + set (q := quiet p _ _) in *. intros H _. unfold NVI in *. unfold q at 1. cbn [quiet p_nv]. rewrite H. cbn [ok] in C'. destruct (ok (p_slots p _)) eqn:EO; [|lia].
      pose proof (cnt_pos (tl (view p)) (N.to_nat s)) as K. rewrite (proj1 (at_nth p s I Hs)) in K. specialize (K EO). rewrite dec_s by lia. lia.
    + intros H _ K Ho (a & Ha). rewrite E' in Ha. apply set_in in Ha as [Ha|Ha]; [discriminate|]. apply K; eauto.
  - unfold flush_append. destruct (with_upd p 0 None (p_nv p) (p_own p) (p_sched p) I ltac:(lia)) as [I' E'].
    rewrite HA in I', E'. nrm.
    rewrite E'. rewrite EV at 1 2. split; auto. split; auto. split; auto. split.
    + intros H _. unfold NVI in *. rewrite E', EV. cbn [set tl quiet p_nv]. rewrite H, EV. reflexivity.
    + intros H _ K Ho (a & Ha). rewrite E' in Ha. apply set_in in Ha as [Ha|Ha]; [discriminate|]. apply K; eauto.
  - unfold flush_all. destruct (with_map p (fold_left (fun f i => upd f i None) (positions p) (p_slots p)) (fun _ => None) 0 (p_own p) (p_sched p) I eq_refl) as [I' E'].
    { intros i. apply fold_none. }
    nrm.
    rewrite E'. split; auto. split; auto. split; auto. split.
    + intros H _. unfold NVI in *. rewrite E', EV. cbn [tl quiet p_nv map]. clear. induction l; auto.
    + intros H _ K Ho (a & Ha). rewrite E' in Ha. apply in_map_iff in Ha as (? & ? & _). discriminate.
  - unfold flush_if. destruct (fold_left (flush_if1 pr) (positions p) (p_slots p, p_nv p)) as [f nv] eqn:EF.
    destruct (fold_if pr (positions p) (p_slots p) (p_nv p) (positions_nd p I)) as [F1 F2]. rewrite EF in F1, F2. cbn [fst snd] in F1, F2.
    destruct (with_map p f (drop pr) nv (p_own p) (p_sched p) I eq_refl F1) as [I' E'].
    nrm. split; [rewrite E'; apply map_ext; intros [x|]; auto|]. split; auto. split; auto. split.
    + intros H HSF. unfold NVI in *. rewrite E', F2. rewrite EV in *. cbn [map tl] in *.
      replace (length (filter (fun i => hit pr (p_slots p i)) (positions p))) with (length (filter (hit pr) l)).
      * pose proof (cnt_hits pr l). rewrite H. rewrite iter_dec by lia. cbn [quiet p_nv]. lia.
      * rewrite (filter_map_len (p_slots p) (hit pr)). rewrite positions_ix, map_map by auto.
        replace (map _ (seq 0 (S (N.to_nat (p_n p))))) with (view p) by (rewrite view_at by auto; reflexivity).
        rewrite EV. cbn [filter]. destruct (hit pr (appended p)) eqn:EH; auto. exfalso.
        cbn [safe] in HSF. unfold hit in EH. destruct (appended p); [rewrite HSF in EH; auto|]; discriminate.
    + intros H _ K Ho (a & Ha). rewrite E' in Ha. apply in_map_iff in Ha as ([b|] & E & Hb); [|discriminate]. apply K; eauto.
  - unfold clear. destruct (all_none p 0 (p_own p) (p_sched p) I) as [I' E'].
    nrm. rewrite E'. split; auto. split; auto. split; auto. split.
    + intros H _. unfold NVI in *. rewrite E', EV. cbn [tl quiet p_nv map]. clear. induction l; auto.
    + intros H _ K Ho (a & Ha). rewrite E' in Ha. apply in_map_iff in Ha as (? & ? & _). discriminate.
  - unfold update. destruct (p_own p) eqn:EO; [exact Logic.I|].
    destruct (internal_good p (p_sched p) I) as (p' & -> & E' & I' & En & NV & PD). split; auto. split; auto.
  - unfold shift_append. rewrite EV. destruct (appended p) as [a|] eqn:EA; [|split; [rewrite EV; auto|split; auto]].
    assert (H0 : 0 < p_n p) by (destruct I; lia). unfold is_valid. rewrite stage_ix by auto. cbn [option_map].
    destruct (at_nth p 0 I H0) as [N0 _]. rewrite EV in N0. cbn [tl] in N0. destruct l as [|c l]; [simpl in HL; lia|]. simpl N.to_nat in N0. cbn [nth] in N0. rewrite <- N0.
    destruct c as [b|]; cbn [ok]; [split; [rewrite EV; auto|split; auto]|].
    unfold write. rewrite stage_ix by auto. cbn [option_map]. rewrite <- N0. cbn [ok].
    match goal with |- context [resched p ?f ?nv] => destruct (set_stage p 0 (Some a) nv (p_sched p || p_own p) (p_own p) I H0) as (I' & E' & C'); change (with_slots p f nv (p_own p) (p_sched p || p_own p)) with (resched p f nv) in * end.
    rewrite <- N0 in C'. set (p1 := resched p _ _) in *.
    destruct (with_upd p1 0 None (p_nv p1) (p_own p1) (p_sched p1) I' ltac:(lia)) as [I2 E2].
    change (phys_append p1) with (phys_append p) in I2, E2. change (p_phys p1) with (p_phys p) in I2, E2. rewrite HA in I2, E2.
    nrm.
    set (p2 := quiet p1 _ _) in *. rewrite E', EV in E2. cbn [set] in E2. simpl N.to_nat in E2. cbn [set] in E2.
    split; auto. split; auto. split; auto. split.
    + intros H _. unfold NVI in *. rewrite E2. cbn [tl]. unfold p2, p1. cbn [quiet resched p_nv]. rewrite H, EV. cbn [tl].
      rewrite EV in HC. cbn [tl] in HC. unfold cnt in *. cbn [filter ok length] in *. rewrite inc_s by lia. lia.
    + intros H _ K Ho _. unfold p2, p1 in *. cbn in *. rewrite Ho. apply orb_true_r.
  - assert (I' : PI (perform_own p)) by (destruct I; constructor; auto). split; [reflexivity|]. split; auto. split; auto. split; auto.
    intros H _ K Ho Ha. change (view (perform_own p)) with (view p) in Ha. cbn. destruct (p_own p) eqn:EO; [rewrite K; auto|]. cbn.
    unfold any_valid. unfold NVI in H. destruct Ha as (a & Ha). rewrite EV in *. cbn [tl] in H. destruct Ha as [Ha|Ha]; [rewrite Ha, !orb_true_r; auto|].
    assert (0 < cnt l)%nat by (apply cnt_in; eauto). destruct (N.ltb_spec 0 (p_nv p)); [apply orb_true_r|lia].
  - unfold fire. destruct (p_sched p) eqn:ES; [|split; auto; split; auto].
    destruct (internal_good p false I) as (p' & -> & E' & I' & En & NV & PD). split; auto. split; auto.
Qed.

Lemma Some_inj : forall {B} (x y : B), Some x = Some y -> x = y.
Proof. congruence. Qed.
Lemma run_app : forall ops1 ops2 p, run p (ops1 ++ ops2) = match run p ops1 with Some p' => run p' ops2 | None => None end.
Proof. induction ops1; intros; simpl; auto. destruct (step p a); auto. Qed.
Lemma step_good : forall p o p', PI p -> step p o = Some p' -> spec (p_own p) (p_sched p) (view p) o = Some (view p') /\ good p p' o.
Proof.
  intros p o p' I H. pose proof (step_spec p o I) as K. rewrite H in K. destruct (spec _ _ _ _) as [L'|]; [|contradiction].
  destruct K as [-> G]. auto.
Qed.
Lemma run_PI : forall ops p p', PI p -> run p ops = Some p' -> PI p' /\ p_n p' = p_n p.
Proof.
  induction ops as [|o ops IH]; intros p p' I H; simpl in H; [injection H as <-; auto|].
  destruct (step p o) as [p1|] eqn:E; [|discriminate]. apply step_good in E as [_ (I1 & En & _)]; auto.
  destruct (IH p1 p' I1 H) as [I' En']. split; auto. congruence.
Qed.

(* Every flushIf of the run is safe. *)
Fixpoint safe_run p (ops : list (pop A)) : Prop :=
  match ops with [] => True | o :: r => safe p o /\ match step p o with Some p' => safe_run p' r | None => True end end.
Lemma safe_inv : forall ops p p', PI p -> NVI p -> PEND p -> safe_run p ops -> run p ops = Some p' -> NVI p' /\ PEND p'.
Proof.
  induction ops as [|o ops IH]; intros p p' I N P S H; simpl in H; [injection H as <-; auto|].
  destruct S as [S1 S2]. destruct (step p o) as [p1|] eqn:E; [|discriminate]. apply step_good in E as [_ (I1 & _ & G1 & G2)]; auto.
  eapply IH; eauto.
Qed.

(* Appends and updates only. The history of the cells, newest first. *)
Definition plain (o : pop A) : bool := match o with OAppend _ | OUpdate => true | _ => false end.
Fixpoint history (h : list (option A)) (ops : list (pop A)) : list (option A) :=
  match ops with
  | OAppend a :: r => history (Some a :: tl h) r
  | OUpdate :: r => history (None :: h) r
  | _ => h
  end.
Definition window (n : nat) (h : list (option A)) : list (option A) := firstn (S n) (h ++ repeat None (S n)).
Lemma window_advance : forall n h, advance (window n h) = window n (None :: h).
Proof.
  intros. unfold advance, window. cbn [app firstn]. f_equal.
  set (x := h ++ repeat None (S n)). assert (H : (S n <= length x)%nat) by (unfold x; rewrite app_length, repeat_length; lia). clearbody x. clear h.
  revert n H. induction x as [|y x IH]; intros n H; [simpl in H; lia|]. destruct n as [|n]; auto.
  destruct x as [|z x]; [simpl in H; lia|]. specialize (IH n ltac:(simpl in *; lia)). cbn [firstn] in IH |- *. cbn [removelast] in *. f_equal. exact IH.
Qed.
Lemma window_tl : forall n h x, h <> [] -> window n (x :: tl h) = x :: tl (window n h).
Proof. intros n [|y h] x H; [contradiction|]. reflexivity. Qed.
Lemma plain_hist : forall ops p h p', PI p -> forallb plain ops = true -> h <> [] -> view p = window (N.to_nat (p_n p)) h -> run p ops = Some p' ->
  view p' = window (N.to_nat (p_n p)) (history h ops).
Proof.
  induction ops as [|o ops IH]; intros p h p' I HP HN HV H; simpl in H; [injection H as <-; auto|].
  simpl in HP. apply andb_prop in HP as [HP1 HP2]. destruct (step p o) as [p1|] eqn:E; [|discriminate].
  pose proof (step_good p o p1 I E) as [ES (I1 & En & _)].
  destruct o; try discriminate; cbn [spec history] in *.
  - rewrite HV in ES. destruct h as [|y h]; [contradiction|]. unfold window in ES. cbn [app firstn] in ES. destruct y; [discriminate|].
    apply Some_inj in ES. rewrite <- En. eapply IH; eauto; [discriminate|]. rewrite En, <- ES. reflexivity.
  - destruct (p_own p); [discriminate|]. apply Some_inj in ES. rewrite <- En. eapply IH; eauto; [discriminate|].
    rewrite <- ES, HV, En. apply window_advance.
Qed.

(* Number of advances performed by a run. *)
Definition moves p (o : pop A) : nat := match o with OUpdate => 1 | OFire => if p_sched p then 1 else 0 | _ => 0 end.
Fixpoint advances p (ops : list (pop A)) : nat :=
  match ops with [] => 0 | o :: r => moves p o + match step p o with Some p' => advances p' r | None => 0 end end.
(* The call does not remove or overwrite the datum a that is j updates old. *)
Definition leaves (a : A) (j : nat) (o : pop A) : Prop :=
  match o with
  | OWrite s _ | OInvalidate s | OFlush s => S (N.to_nat s) <> j
  | OFlushAppend | OShiftAppend => j <> 0%nat
  | OFlushAll | OClear => False
  | OFlushIf pr => pr a = false
  | _ => True
  end.
Fixpoint leaves_run (a : A) (j : nat) p (ops : list (pop A)) : Prop :=
  match ops with [] => True | o :: r => leaves a j o /\ match step p o with Some p' => leaves_run a (j + moves p o) p' r | None => True end end.

Lemma nth_removelast_some : forall {B} (l : list B) j, (S j < length l)%nat -> nth_error (removelast l) j = nth_error l j.
Proof.
  induction l as [|x l IH]; intros j H; [simpl in H; lia|]. destruct l as [|y l]; [simpl in H; lia|]. cbn [removelast]. destruct j; auto.
  cbn [nth_error]. apply IH. simpl in *. lia.
Qed.
Lemma leaves_step : forall p o p' a j, PI p -> step p o = Some p' -> leaves a j o -> nth_error (view p) j = Some (Some a) ->
  (j + moves p o <= N.to_nat (p_n p))%nat -> nth_error (view p') (j + moves p o) = Some (Some a).
Proof.
  intros p o p' a j I E HL HJ HB. pose proof (step_good p o p' I E) as [ES _].
  assert (HLen : length (view p) = S (N.to_nat (p_n p))) by apply view_len.
  destruct o as [b|s b|s|s| | |pr| | | | |]; unfold spec in ES; try rewrite len_n in ES; cbn [leaves moves] in *; try rewrite Nat.add_0_r in *.
  - destruct (view p) as [|[c|] r]; try discriminate. apply Some_inj in ES; rewrite <- ES; clear ES. destruct j; [discriminate|auto].
  - destruct (N.ltb_spec s (p_n p)); [|discriminate]. apply Some_inj in ES; rewrite <- ES; clear ES. rewrite set_nth by lia. destruct (Nat.eqb_spec j (S (N.to_nat s))); [subst; congruence|auto].
  - destruct (N.ltb_spec s (p_n p)); [|discriminate]. destruct (nth_error (view p) (S (N.to_nat s))) as [[|]|]; try discriminate.
    apply Some_inj in ES; rewrite <- ES; clear ES. rewrite set_nth by lia. destruct (Nat.eqb_spec j (S (N.to_nat s))); [subst; congruence|auto].
  - destruct (N.ltb_spec s (p_n p)); [|discriminate]. apply Some_inj in ES; rewrite <- ES; clear ES. rewrite set_nth by lia. destruct (Nat.eqb_spec j (S (N.to_nat s))); [subst; congruence|auto].
  - apply Some_inj in ES; rewrite <- ES; clear ES. destruct j; [lia|]. destruct (view p); [discriminate|auto].
  - contradiction.
  - apply Some_inj in ES; rewrite <- ES; clear ES. rewrite nth_error_map, HJ. simpl. rewrite HL. reflexivity.
  - contradiction.
  - destruct (p_own p); [discriminate|]. apply Some_inj in ES; rewrite <- ES; clear ES. rewrite Nat.add_1_r. cbn [advance nth_error]. rewrite nth_removelast_some by lia. auto.
  - destruct (view p) as [|[c|] [|[d|] r]]; apply Some_inj in ES; rewrite <- ES; clear ES; auto. destruct j as [|[|j]]; auto; try lia. discriminate.
  - apply Some_inj in ES; rewrite <- ES; clear ES. auto.
  - destruct (p_sched p); apply Some_inj in ES; rewrite <- ES; clear ES; [|rewrite Nat.add_0_r; auto]. rewrite Nat.add_1_r. cbn [advance nth_error]. rewrite nth_removelast_some by lia. auto.
Qed.
Lemma leaves_pos : forall ops p p' a j, PI p -> run p ops = Some p' -> leaves_run a j p ops -> nth_error (view p) j = Some (Some a) ->
  (j + advances p ops <= N.to_nat (p_n p))%nat -> nth_error (view p') (j + advances p ops) = Some (Some a).
Proof.
  induction ops as [|o ops IH]; intros p p' a j I H HL HJ HB; simpl in H.
  - injection H as <-. cbn [advances]. rewrite Nat.add_0_r. auto.
  - cbn [leaves_run advances] in *. destruct (step p o) as [p1|] eqn:E; [|discriminate]. destruct HL as [L1 L2].
    pose proof (leaves_step p o p1 a j I E L1 HJ ltac:(lia)). pose proof (step_good p o p1 I E) as [_ (I1 & En & _)].
    rewrite Nat.add_assoc in *. eapply IH; eauto. rewrite En. lia.
Qed.

(* Order. *)
Inductive subseq {B : Type} : list B -> list B -> Prop :=
| sub_nil : forall l, subseq [] l
| sub_take : forall x l m, subseq l m -> subseq (x :: l) (x :: m)
| sub_skip : forall x l m, subseq l m -> subseq l (x :: m).
Definition data L : list A := flat_map (fun c => match c with Some a => [a] | None => [] end) L.
(* The data appended, newest first. *)
Definition appends (ops : list (pop A)) : list A := data (rev (map (fun o => match o with OAppend a => Some a | _ => None end) ops)).
Definition not_write (o : pop A) : bool := match o with OWrite _ _ => false | _ => true end.

Lemma sub_trans : forall {B} (l m : list B), subseq l m -> forall k, subseq k l -> subseq k m.
Proof.
  induction 1; intros k K.
  - inversion K. constructor.
  - inversion K; subst; [constructor|apply sub_take; auto|apply sub_skip; auto].
  - apply sub_skip; auto.
Qed.
Lemma sub_refl : forall {B} (l : list B), subseq l l.
Proof. induction l; constructor; auto. Qed.
(* A list of cells with some of them emptied. *)
Lemma data_sub : forall L M, Forall2 (fun x y => x = None \/ x = y) L M -> subseq (data L) (data M).
Proof.
  induction 1; [constructor|]. cbn [data flat_map]. change (flat_map _ l) with (data l). change (flat_map _ l') with (data l').
  destruct H as [H|H]; subst x; destruct y; simpl; auto; try (apply sub_skip; auto; fail); try (apply sub_take; auto).
Qed.
Lemma set_none : forall j L, Forall2 (fun x y => x = None \/ x = y) (set j None L) L.
Proof.
  induction j; destruct L; simpl; constructor; auto. clear. induction L; constructor; auto.
Qed.
Lemma map_none : forall (f : option A -> option A) L, (forall x, f x = None \/ f x = x) -> Forall2 (fun x y => x = None \/ x = y) (map f L) L.
Proof. induction L; constructor; auto. Qed.
Lemma sub_app_r : forall {B} (k l m : list B), subseq l m -> subseq l (m ++ k).
Proof. induction 1; simpl; constructor; auto. Qed.
Lemma data_app : forall L M, data (L ++ M) = data L ++ data M.
Proof. intros. unfold data. apply flat_map_app. Qed.
Lemma advance_sub : forall L, subseq (data (advance L)) (data L).
Proof.
  intros. change (data (advance L)) with (data (removelast L)). destruct L as [|x L] using rev_ind; [constructor|].
  rewrite removelast_last, data_app. apply sub_app_r, sub_refl.
Qed.
Lemma order_step : forall p o p' m, PI p -> step p o = Some p' -> not_write o = true -> subseq (data (view p)) m ->
  subseq (data (view p')) (match o with OAppend a => a :: m | _ => m end).
Proof.
  intros p o p' m I E HW HS. pose proof (step_good p o p' I E) as [ES _].
  assert (K : forall L, Forall2 (fun x y => x = None \/ x = y) L (view p) -> subseq (data L) m).
  { intros L HF. eapply sub_trans; [exact HS|]. apply data_sub; auto. }
  destruct o as [b|s b|s|s| | |pr| | | | |]; try discriminate; unfold spec in ES; try rewrite len_n in ES.
  - destruct (view p) as [|[c|] r]; try discriminate. apply Some_inj in ES; rewrite <- ES; clear ES. simpl. apply sub_take. exact HS.
  - destruct (s <? p_n p); [|discriminate]. destruct (nth_error (view p) (S (N.to_nat s))) as [[|]|]; try discriminate.
    apply Some_inj in ES; rewrite <- ES; clear ES. apply K, set_none.
  - destruct (s <? p_n p); [|discriminate]. apply Some_inj in ES; rewrite <- ES; clear ES. apply K, set_none.
  - apply Some_inj in ES; rewrite <- ES; clear ES. destruct (view p) as [|c r]; [constructor|]. eapply sub_trans; [exact HS|]. destruct c; [apply sub_skip|]; apply sub_refl.
  - apply Some_inj in ES; rewrite <- ES; clear ES. apply K, map_none. auto.
  - apply Some_inj in ES; rewrite <- ES; clear ES. apply K, map_none. intros [x|]; auto. destruct (pr x); auto.
  - apply Some_inj in ES; rewrite <- ES; clear ES. apply K, map_none. auto.
  - destruct (p_own p); [discriminate|]. apply Some_inj in ES; rewrite <- ES; clear ES. eapply sub_trans; [exact HS|apply advance_sub].
  - destruct (view p) as [|[c|] [|[d|] r]]; apply Some_inj in ES; rewrite <- ES; clear ES; auto.
  - apply Some_inj in ES; rewrite <- ES; clear ES. auto.
  - destruct (p_sched p); apply Some_inj in ES; rewrite <- ES; clear ES; auto. eapply sub_trans; [exact HS|apply advance_sub].
Qed.
Lemma order_run : forall ops p p' m, PI p -> forallb not_write ops = true -> run p ops = Some p' -> subseq (data (view p)) m ->
  subseq (data (view p')) (appends ops ++ m).
Proof.
  induction ops as [|o ops IH]; intros p p' m I HW H HS; simpl in H; [injection H as <-; auto|].
  simpl in HW. apply andb_prop in HW as [W1 W2]. destruct (step p o) as [p1|] eqn:E; [|discriminate].
  pose proof (step_good p o p1 I E) as [_ (I1 & En & _)]. pose proof (order_step p o p1 m I E W1 HS) as HS1.
  specialize (IH p1 p' _ I1 W2 H HS1). unfold appends in *. cbn [map rev]. rewrite data_app, <- app_assoc.
  destruct o; exact IH.
Qed.

(** Cells. What can be read from a pipe (readAppendedData, then read of stage 0, 1, ..., n-1; None where
    not valid) changes with every call exactly as [spec] says, and a call fails exactly when [spec] does. *)
Theorem C24_refines : forall n p0 ops p o, n < 2 ^ 31 -> p_init n = Some p0 -> run p0 ops = Some p ->
  let cells q := appended q :: map (fun s => read q (N.of_nat s)) (seq 0 (N.to_nat n)) in
  match step p o, spec (p_own p) (p_sched p) (cells p) o with
  | Some p', Some L' => cells p' = L' | None, None => True | _, _ => False end.
Proof.
  intros n p0 ops p o Hn H0 H cells. destruct (init_ok n p0 Hn H0) as (I0 & _ & En & _). destruct (run_PI _ _ _ I0 H) as [I E].
  assert (C : forall q, p_n q = n -> cells q = view q) by (intros q <-; reflexivity). rewrite C by congruence.
  pose proof (step_spec p o I) as K. destruct (step p o) as [p'|], (spec _ _ _ _); auto. destruct K as [K (_ & E' & _)].
  rewrite C by congruence. exact K.
Qed.

(** Transit. A datum appended to a pipe is at stage k after exactly k+1 updates, whatever else is done to
    the pipe meanwhile, as long as no call removes or overwrites it. *)
Theorem C24_transit : forall n p0 ops0 p a p1 ops p2 k, n < 2 ^ 31 -> p_init n = Some p0 -> run p0 ops0 = Some p ->
  append p a = Some p1 -> run p1 ops = Some p2 -> leaves_run a 0 p1 ops -> advances p1 ops = S k -> N.of_nat k < n ->
  read p2 (N.of_nat k) = Some a.
Proof.
  intros n p0 ops0 p a p1 ops p2 k Hn H0 HR HA H HL HK HB. destruct (init_ok n p0 Hn H0) as (I0 & _ & En0 & _).
  destruct (run_PI _ _ _ I0 HR) as [I E]. change (append p a) with (step p (OAppend a)) in HA. pose proof (step_good p _ p1 I HA) as [ES (I1 & En & _)].
  assert (V1 : nth_error (view p1) 0 = Some (Some a)).
  { cbn [spec] in ES. destruct (view p) as [|[c|] r]; try discriminate. apply Some_inj in ES; rewrite <- ES; clear ES. reflexivity. }
  pose proof (leaves_pos ops p1 p2 a 0 I1 H HL V1 ltac:(lia)) as K. rewrite HK in K.
  destruct (run_PI _ _ _ I1 H) as [I2 E2]. simpl plus in K. pose proof (at_nth p2 (N.of_nat k) I2 ltac:(lia)) as [_ K2].
  rewrite Nat2N.id in K2. rewrite K2 in K. unfold read. rewrite stage_ix by (auto; lia). congruence.
Qed.

(** Exactness. After any appends and updates, the pipe holds exactly what was appended (nothing where
    nothing was appended) in the last n+1 periods between updates; older data is gone. *)
Theorem C24_window : forall n p0 ops p, n < 2 ^ 31 -> p_init n = Some p0 -> run p0 ops = Some p -> forallb plain ops = true ->
  appended p :: map (fun s => read p (N.of_nat s)) (seq 0 (N.to_nat n)) = window (N.to_nat n) (history [None] ops).
Proof.
  intros n p0 ops p Hn H0 H HP. destruct (init_ok n p0 Hn H0) as (I0 & E0 & En & _). destruct (run_PI _ _ _ I0 H) as [I E].
  rewrite <- En at 1. rewrite <- E at 1. change (view p = window (N.to_nat n) (history [None] ops)). rewrite <- En.
  eapply plain_hist; eauto; [discriminate|]. rewrite E0, En. unfold window. cbn [app firstn repeat]. f_equal.
  generalize (N.to_nat n). induction n0; auto. cbn [repeat firstn]. f_equal. exact IHn0.
Qed.

(** No overtaking. Without writes into the middle of the pipe, the data in the pipe, youngest stage first,
    is a subsequence of the data appended, newest first. *)
Theorem C24_no_overtaking : forall n p0 ops p, n < 2 ^ 31 -> p_init n = Some p0 -> run p0 ops = Some p -> forallb not_write ops = true ->
  subseq (data (appended p :: map (fun s => read p (N.of_nat s)) (seq 0 (N.to_nat n)))) (appends ops).
Proof.
  intros n p0 ops p Hn H0 H HP. destruct (init_ok n p0 Hn H0) as (I0 & E0 & En & _). destruct (run_PI _ _ _ I0 H) as [I E].
  rewrite <- En, <- E. change (subseq (data (view p)) (appends ops)). rewrite <- (app_nil_r (appends ops)). apply (order_run ops p0 p []); auto.
  rewrite E0. replace (data (repeat None (S (N.to_nat n)))) with (@nil A); [constructor|]. generalize (S (N.to_nat n)). induction n0; auto.
Qed.

Lemma init_inv : forall n p0, n < 2 ^ 31 -> p_init n = Some p0 -> PI p0 /\ NVI p0 /\ PEND p0.
Proof.
  intros n p0 Hn H0. destruct (init_ok n p0 Hn H0) as (I0 & E0 & En & Env & Eo & Es). split; auto. split.
  - unfold NVI. rewrite Env, E0. cbn [repeat tl]. generalize (N.to_nat n). induction n0; auto.
  - intros Ho. congruence.
Qed.
(** numValid counts the valid stages, and a self-updating pipe that holds data has its update pending --
    as long as no flushIf is called whose predicate holds of the datum in the append slot. *)
Theorem C24_num_valid_partial : forall n p0 ops p, n < 2 ^ 31 -> p_init n = Some p0 -> run p0 ops = Some p -> safe_run p0 ops ->
  num_valid p = N.of_nat (length (filter (fun s => match read p (N.of_nat s) with Some _ => true | None => false end) (seq 0 (N.to_nat n)))).
Proof.
  intros n p0 ops p Hn H0 H HS. destruct (init_inv n p0 Hn H0) as (I0 & N0 & P0). destruct (safe_inv _ _ _ I0 N0 P0 HS H) as [K _].
  destruct (run_PI _ _ _ I0 H) as [I E]. destruct (init_ok n p0 Hn H0) as (_ & _ & En & _).
  unfold NVI in K. unfold num_valid. rewrite K. unfold view. cbn [tl]. unfold cnt. rewrite E, En.
  f_equal. symmetry. apply (filter_map_len (fun s => read p (N.of_nat s)) ok).
Qed.
Theorem C24_own_update_pending_partial : forall n p0 ops p, n < 2 ^ 31 -> p_init n = Some p0 -> run p0 ops = Some p -> safe_run p0 ops ->
  p_own p = true -> (exists s a, s < n /\ read p s = Some a) \/ (exists a, appended p = Some a) -> p_sched p = true.
Proof.
  intros n p0 ops p Hn H0 H HS Ho Hd. destruct (init_inv n p0 Hn H0) as (I0 & N0 & P0). destruct (safe_inv _ _ _ I0 N0 P0 HS H) as [_ K].
  apply K; auto. destruct (run_PI _ _ _ I0 H) as [I E]. destruct (init_ok n p0 Hn H0) as (_ & _ & En & _).
  unfold view. destruct Hd as [(s & a & Hs & Hr)|(a & Ha)]; exists a; [right|left; auto].
  apply in_map_iff. exists (N.to_nat s). rewrite N2Nat.id. split; auto. apply in_seq. lia.
Qed.
End SPEC.
Print Assumptions C24_refines.
Print Assumptions C24_transit.
Print Assumptions C24_window.
Print Assumptions C24_no_overtaking.
Print Assumptions C24_num_valid_partial.
Print Assumptions C24_own_update_pending_partial.

(** flushIf counts the datum in the append slot as a valid stage: the count becomes 2^32-1. *)
Theorem C24_flushif_refuted : exists (p0 : pipe N) ops p, p_init 3 = Some p0 /\ run p0 ops = Some p /\
  num_valid p = 2 ^ 32 - 1 /\ map (fun s => read p s) [0; 1; 2] = [None; None; None].
Proof.
  eexists. exists [OAppend 7; OFlushIf (fun _ => true)]. eexists. split; [vm_compute; reflexivity|].
  split; [vm_compute; reflexivity|]. split; vm_compute; reflexivity.
Qed.
Print Assumptions C24_flushif_refuted.
(** The wrong count then stops a self-updating pipe: a datum appended later sticks at stage 0. *)
Theorem C24_own_stuck_refuted : exists (p0 : pipe N) ops p, p_init 3 = Some p0 /\ run p0 ops = Some p /\
  p_own p = true /\ read p 0 = Some 8 /\ p_sched p = false /\ forall k, run p (repeat OFire k) = Some p.
Proof.
  assert (E : exists p, match p_init 3 with Some p0 => run p0 [OOwn; OAppend 7; OFlushIf (fun _ => true); OAppend 8; OFire] | None => None end = Some p /\
    p_own p = true /\ read p 0 = Some 8 /\ p_sched p = false).
  { eexists. split; [vm_compute; reflexivity|]. split; [vm_compute; reflexivity|]. split; vm_compute; reflexivity. }
  destruct E as (p & E1 & E2 & E3 & E4). destruct (p_init 3) as [p0|]; [|discriminate].
  exists p0, [OOwn; OAppend 7; OFlushIf (fun _ => true); OAppend 8; OFire], p. split; auto. split; auto. split; auto. split; auto. split; auto.
  induction k; auto. cbn [repeat run step]. unfold fire at 1. rewrite E4. exact IHk.
Qed.
Print Assumptions C24_own_stuck_refuted.

(* Concrete cases. *)
Definition ex_get {B} (o : option B) (d : B) : B := match o with Some x => x | None => d end.
Definition ex_run (ops : list (pop N)) : option (pipe N) := match p_init 3 with Some p => run p ops | None => None end.
Definition ex_cells (o : option (pipe N)) : list (option N) :=
  match o with Some p => appended p :: map (read p) [0; 1; 2] | None => [] end.
Example C24_refines_ex : ex_cells (ex_run [OAppend 5; OUpdate; OWrite 2 9; OAppend 6; OUpdate; OFlush 0; OAppend 7]) = [Some 7; None; Some 5; None].
Proof. vm_compute. reflexivity. Qed.
Example C24_transit_ex :
  match ex_run [OAppend 4; OUpdate; OAppend 5] with
  | Some p => leaves_run 5 0 p [OUpdate; OFlush 1; OAppend 8; OUpdate; OWrite 0 3] /\ advances p [OUpdate; OFlush 1; OAppend 8; OUpdate; OWrite 0 3] = 2%nat /\
              ex_cells (run p [OUpdate; OFlush 1; OAppend 8; OUpdate; OWrite 0 3]) = [None; Some 3; Some 5; None]
  | None => False end.
Proof.
  destruct (ex_run [OAppend 4; OUpdate; OAppend 5]) as [p|] eqn:E; [|vm_compute in E; discriminate].
  vm_compute in E. injection E as <-. split; [|split; vm_compute; reflexivity]. simpl. repeat split; discriminate.
Qed.
Example C24_window_ex : ex_cells (ex_run [OAppend 1; OUpdate; OAppend 2; OUpdate; OUpdate; OAppend 3; OUpdate; OAppend 4]) = window 3 [Some 4; Some 3; None; Some 2; Some 1].
Proof. vm_compute. reflexivity. Qed.
Example C24_no_overtaking_ex : data (ex_cells (ex_run [OAppend 1; OUpdate; OAppend 2; OUpdate; OFlush 1; OAppend 3])) = [3; 2] /\
  appends [OAppend 1; OUpdate; OAppend 2; OUpdate; OFlush 1; OAppend 3] = [3; 2; 1].
Proof. split; vm_compute; reflexivity. Qed.
Example C24_num_valid_ex : match ex_run [OAppend 1; OUpdate; OWrite 2 5; OFlushIf (N.eqb 5); OWrite 1 6; OAppend 7] with Some p => num_valid p | None => 9 end = 2.
Proof. vm_compute. reflexivity. Qed.
Example C24_own_update_pending_ex : match ex_run [OWrite 2 5; OOwn; OAppend 1; OFire; OFire] with
  Some p => p_sched p = true /\ read p 1 = Some 1 /\ safe_run p [OFlushIf (N.eqb 1)] | None => False end.
Proof.
  destruct (ex_run [OWrite 2 5; OOwn; OAppend 1; OFire; OFire]) as [p|] eqn:E; [|vm_compute in E; discriminate].
  vm_compute in E. injection E as <-. split; [vm_compute; reflexivity|]. split; [vm_compute; reflexivity|].
  simpl. split; auto. intros a K. vm_compute in K. discriminate.
Qed.
