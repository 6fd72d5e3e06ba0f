(* Properties C44 (LRU) and C45 (tree PLRU). *)
Require Import List Bool Arith Permutation Sorted ZArith Lia.
Require Import Verif.ReplacementModel Verif.ReplacementProofs.
Import ListNotations.

Definition legal (n : nat) (t : touch) : Prop := match t with TouchMRU w | TouchLRU w => w < n end.

(* Spec of recency, from the history alone: the i-th call (counting from [i]) stamps its way with i
   (touchMRU: newest so far) or -i (touchLRU: oldest so far). *)
Open Scope Z_scope.
Fixpoint recency (i : nat) (h : list touch) (ts : nat -> Z) : nat -> Z :=
  match h with
  | [] => ts
  | TouchMRU w :: h' => recency (S i) h' (fun x => if Nat.eqb x w then Z.of_nat i else ts x)
  | TouchLRU w :: h' => recency (S i) h' (fun x => if Nat.eqb x w then - Z.of_nat i else ts x)
  end.
(* Before any touch, ways are ordered by number; calls are counted from n. *)
Definition recency_of (n : nat) (h : list touch) : nat -> Z := recency n h Z.of_nat.

Lemma recency_stamps h : forall i ts, recency i h ts = stamps i h ts.
Proof. induction h as [|[w|w] h IH]; intros i ts; cbn; auto. Qed.

Lemma init_inv n : (0 < n)%nat -> lru_inv n n Z.of_nat (lru_init n).
Proof.
  intros Hn. unfold lru_inv, lru_init. split; [reflexivity|]. split; [|intros; lia].
  clear Hn. generalize 0%nat. induction n as [|n IH]; intros s; cbn; constructor; auto.
  apply Forall_forall. intros x Hx. apply in_seq in Hx. lia.
Qed.

(* C44. For every number of ways and every history of legal touches the victim is the unique least
   recently used way, the MRU way the unique most recently used one, and the bookkeeping remains a
   permutation of the ways. *)
Theorem C44_lru : forall n h, (0 < n)%nat -> Forall (legal n) h ->
  exists s v m, lru_run h (lru_init n) = Some s /\ Permutation s (seq 0 n) /\
    lru_victim s = Some v /\ lru_mru s = Some m /\ (v < n)%nat /\ (m < n)%nat /\
    (forall w, (w < n)%nat -> w <> v -> recency_of n h v < recency_of n h w) /\
    (forall w, (w < n)%nat -> w <> m -> recency_of n h w < recency_of n h m).
Proof.
  intros n h Hn Hh. destruct (lru_run_inv n h Hh n Z.of_nat (lru_init n) (init_inv n Hn)) as (s & E & Hp & Hs & Hb).
  assert (Hin : forall x, In x s <-> (x < n)%nat) by (intros x; rewrite Hp, in_seq; lia).
  destruct s as [|v t].
  { apply Permutation_length in Hp. rewrite seq_length in Hp. cbn in Hp. lia. }
  exists (v :: t), v, (last t v). unfold recency_of. rewrite recency_stamps.
  repeat split; auto.
  - apply Hin. now left.
  - apply Hin. destruct t as [|x t]; [now left|]. right.
    destruct (exists_last (l := x :: t)) as (l & y & El); [discriminate|].
    rewrite El, last_last. apply in_or_app. right. now left.
  - intros w Hw Hne. apply StronglySorted_inv in Hs. destruct Hs as [_ Hall]. rewrite Forall_forall in Hall.
    apply Hall. apply Hin in Hw. destruct Hw; congruence.
  - intros w Hw Hne. apply Hin in Hw.
    assert (Hl : exists l y, v :: t = l ++ [y]).
    { destruct (exists_last (l := v :: t)) as (l & y & El); [discriminate|]. eauto. }
    destruct Hl as (l & y & El).
    assert (Hy : last t v = y).
    { destruct t as [|x t]; [cbn; destruct l as [|? [|]]; cbn in El; congruence|].
      change (last (x :: t) v) with (last (v :: x :: t) v). rewrite El. apply last_last. }
    rewrite Hy in *. rewrite El in Hs, Hw. clear -Hs Hw Hne.
    induction l as [|z l IH]; cbn in *; [destruct Hw as [|[]]; congruence|].
    apply StronglySorted_inv in Hs. destruct Hs as [Hs Hall]. destruct Hw as [->|Hw]; [|auto].
    rewrite Forall_forall in Hall. apply Hall. apply in_or_app. right. now left.
Qed.
Example C44_ex : lru_run [TouchMRU 0; TouchLRU 2; TouchMRU 2; TouchMRU 1] (lru_init 4) = Some [3; 0; 2; 1]%nat /\
  recency_of 4 [TouchMRU 0; TouchLRU 2; TouchMRU 2; TouchMRU 1] 0%nat = 4.
Proof. split; reflexivity. Qed.
Print Assumptions C44_lru.

(* The way just made MRU is never the next victim when there are two or more ways. *)
Theorem C44_mru_not_victim : forall n h w, (2 <= n)%nat -> Forall (legal n) h -> (w < n)%nat ->
  exists s, lru_run (h ++ [TouchMRU w]) (lru_init n) = Some s /\ lru_mru s = Some w /\
    exists v, lru_victim s = Some v /\ v <> w.
Proof.
  intros n h w Hn Hh Hw.
  destruct (C44_lru n (h ++ [TouchMRU w])) as (s & v & m & E & Hp & Hv & Hm & Hvn & Hmn & Hold & Hnew); [lia| |].
  { apply Forall_app. split; [assumption|]. constructor; [exact Hw|constructor]. }
  assert (Hst : forall x, (x < n)%nat -> x <> w ->
     recency_of n (h ++ [TouchMRU w]) x < recency_of n (h ++ [TouchMRU w]) w).
  { intros x Hx Hne. unfold recency_of. rewrite !recency_stamps.
    assert (G : forall h i ts, stamps i (h ++ [TouchMRU w]) ts = stamp (length h + i) (TouchMRU w) (stamps i h ts)).
    { clear. induction h as [|t h IH]; intros i ts; cbn [app stamps length]; [reflexivity|].
      rewrite IH. f_equal. lia. }
    rewrite G. cbn [stamp]. rewrite Nat.eqb_refl, (proj2 (Nat.eqb_neq _ _) Hne).
    destruct (lru_run_inv n h Hh n Z.of_nat (lru_init n)) as (s0 & _ & _ & _ & Hb); [apply init_inv; lia|].
    apply Hb. exact Hx. }
  exists s. split; [exact E|].
  assert (m = w).
  { destruct (Nat.eq_dec m w) as [|Hne]; [assumption|].
    specialize (Hnew w Hw). specialize (Hst m Hmn Hne). lia. }
  subst m. split; [exact Hm|]. exists v. split; [exact Hv|]. intros ->.
  assert (Hx : exists x, (x < n)%nat /\ x <> w).
  { destruct w; [exists 1%nat|exists 0%nat]; lia. }
  destruct Hx as (x & Hx & Hne). specialize (Hold x Hx Hne). specialize (Hst x Hx Hne). lia.
Qed.
Example C44_mru_ex : lru_run ([TouchMRU 1; TouchLRU 0] ++ [TouchMRU 0]) (lru_init 2) = Some [1; 0]%nat.
Proof. reflexivity. Qed.
Print Assumptions C44_mru_not_victim.
Close Scope Z_scope.

(* C45. k tree levels, 2^k ways, any state of the bits. *)
Theorem C45_touch : forall k b w, w < 2 ^ k ->
  (exists b', plru_touch_mru k w b = Some b' /\ plru_mru k b' = w /\ (0 < k -> plru_victim k b' <> w)) /\
  (exists b', plru_touch_lru k w b = Some b' /\ plru_victim k b' = w /\ (0 < k -> plru_mru k b' <> w)).
Proof.
  intros k b w Hw. unfold plru_touch_mru, plru_touch_lru. rewrite (proj2 (Nat.ltb_lt _ _) Hw). split.
  - eexists. split; [reflexivity|]. pose proof (plru_mru_after k w b Hw) as E. split; [exact E|].
    intros Hk Hv. apply (victim_ne_mru k (climb true k (w + 2 ^ k) b)); [assumption|congruence].
  - eexists. split; [reflexivity|]. pose proof (plru_lru_after k w b Hw) as E. split; [exact E|].
    intros Hk Hv. apply (victim_ne_mru k (climb false k (w + 2 ^ k) b)); [assumption|congruence].
Qed.
Example C45_touch_ex : match plru_touch_mru 3 5 plru_reset with
  | Some b => plru_mru 3 b = 5 /\ plru_victim 3 b = 0 | None => False end.
Proof. split; reflexivity. Qed.
Print Assumptions C45_touch.

Theorem C45_legal_way : forall k b, plru_victim k b < 2 ^ k /\ plru_mru k b < 2 ^ k.
Proof. intros k b. split; [apply plru_victim_range|apply plru_mru_range]. Qed.
Example C45_legal_ex : plru_victim 3 (fun _ => true) = 7.
Proof. reflexivity. Qed.
Print Assumptions C45_legal_way.

(* After reset() way 0 is the victim and the last way the most recent one. *)
Theorem C45_reset : forall k, plru_victim k plru_reset = 0 /\ plru_mru k plru_reset = 2 ^ k - 1.
Proof.
  intros k. assert (D : forall k i, descend k plru_reset i = i * 2 ^ k).
  { clear. induction k as [|k IH]; intros i; cbn [descend]; [cbn; lia|]. unfold plru_reset at 2. cbn [b2n].
    rewrite IH, Nat.pow_succ_r'. lia. }
  assert (M : forall k i, descend_not k plru_reset i + 1 = (i + 1) * 2 ^ k).
  { clear. induction k as [|k IH]; intros i; cbn [descend_not]; [cbn; lia|]. unfold plru_reset at 2. cbn [negb b2n].
    rewrite IH, Nat.pow_succ_r'. lia. }
  unfold plru_victim, plru_mru. rewrite D. specialize (M k 1). split; lia.
Qed.
Example C45_reset_ex : plru_victim 3 plru_reset = 0 /\ plru_mru 3 plru_reset = 7.
Proof. split; reflexivity. Qed.
Print Assumptions C45_reset.

(* From any state, 2^k successive replacements hit every way exactly once. *)
Theorem C45_rotation : forall k b, exists vs, plru_replace (2 ^ k) k b = Some vs /\ Permutation vs (seq 0 (2 ^ k)).
Proof.
  intros k b. destruct (plru_replace (2 ^ k) k b) as [vs|] eqn:E.
  - exists vs. split; [reflexivity|]. eapply plru_rotation; eassumption.
  - rewrite plru_replace_victims in E. discriminate.
Qed.
Example C45_rotation_ex : plru_replace 8 3 (fun i => Nat.odd i) = Some [7; 0; 4; 3; 6; 1; 5; 2].
Proof. reflexivity. Qed.
Print Assumptions C45_rotation.
