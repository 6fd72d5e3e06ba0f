(** C20: Buffer. *)
From Coq Require Import List Arith Bool Lia Permutation.
From Verif Require Import BufferModel BufferProofs.
Import ListNotations.

(** Contents as a list of (iterator, value) after a call, when the call is allowed with [n] entries;
    [r] is the iterator returned. *)
Inductive list_step {A} (n : nat) : list (nat * A) -> bop A -> option nat -> list (nat * A) -> Prop :=
| LPush l x p : length l < n -> ~ In p (map fst l) -> list_step n l (BPush x) (Some p) (l ++ [(p, x)])
| LInsert l i x p : length l < n -> i <= length l -> ~ In p (map fst l) ->
    list_step n l (BInsert i x) (Some p) (firstn i l ++ (p, x) :: skipn i l)
| LErase l i : i < length l -> list_step n l (BErase i) None (firstn i l ++ skipn (S i) l)
| LClear l : list_step n l BClear None [].
(** The same for a sequence. *)
Inductive list_run {A} (n : nat) : list (nat * A) -> list (bop A) -> list (option nat) -> list (nat * A) -> Prop :=
| LNil l : list_run n l [] [] l
| LCons l o r l1 os rs l2 : list_step n l o r l1 -> list_run n l1 os rs l2 -> list_run n l (o :: os) (r :: rs) l2.

(** makeInfinite is not called. *)
Definition finite {A} (ops : list (bop A)) : Prop := forall d, ~ In (BInfinite d) ops.

Section GOOD.
Context {A : Type}.
Definition good (n : nat) (b : buf A) (l : list (nat * A)) : Prop :=
  (exists st k, bi b l st k) /\ phys_ok b l /\ b_n b = n /\ b_inf b = None.

Lemma good_init : forall n (b : buf A), init n = Some b -> good n b [].
Proof.
  intros n b H. destruct (init_ok _ _ H) as [B [N F]]. split; [eauto|]. split; [|auto]. intros j p C. destruct j; discriminate.
Qed.
Lemma good_step : forall n b l o, good n b l -> (forall d, o <> BInfinite d) ->
  match step b o with
  | Some (b', r) => exists l', list_step n l o r l' /\ good n b' l'
  | None => forall r l', ~ list_step n l o r l'
  end.
Proof.
  intros n b l o [[st [k B]] [P [N F]]] HO. subst n. destruct o as [x|i x|i| |d]; cbn [step].
  - destruct (Nat.lt_ge_cases (length l) (b_n b)) as [L|L].
    + destruct (push_ok _ _ _ _ x B F L) as [b' [st' [k' [E [B' [NI [N' [F' P']]]]]]]]. rewrite E. cbn [option_map fst snd].
      eexists. split; [apply LPush; auto|]. split; [eauto|]. auto.
    + rewrite (push_refuse _ _ _ _ x B F L). cbn [option_map]. intros r l' C. inversion C; subst. lia.
  - destruct (Nat.lt_ge_cases (length l) (b_n b)) as [L|L]; [destruct (Nat.le_gt_cases i (length l)) as [I|I]|].
    + destruct (insert_ok _ _ _ _ i x B F I L) as [b' [st' [k' [E [B' [NI [N' [F' P']]]]]]]]. rewrite E. cbn [option_map fst snd].
      eexists. split; [apply LInsert; auto|]. split; [eauto|]. auto.
    + rewrite (insert_refuse _ _ _ _ i x B F) by lia. cbn [option_map]. intros r l' C. inversion C; subst. lia.
    + rewrite (insert_refuse _ _ _ _ i x B F) by lia. cbn [option_map]. intros r l' C. inversion C; subst. lia.
  - destruct (Nat.lt_ge_cases i (length l)) as [L|L].
    + destruct (erase_ok _ _ _ _ i B L) as [b' [st' [f [x [E [_ [B' [N' [F' [_ [P' _]]]]]]]]]]]. rewrite E. cbn [option_map].
      eexists. split; [apply LErase; auto|]. split; [eauto|]. split; [apply P'; auto|]. split; congruence.
    + rewrite (erase_refuse _ _ _ _ i B L). cbn [option_map]. intros r l' C. inversion C; subst. lia.
  - destruct (clear_ok _ _ _ _ B) as [b' [E [B' [N' F']]]]. rewrite E. cbn [option_map].
    eexists. split; [apply LClear|]. split; [eauto|]. split; [|split; congruence]. intros j p C. destruct j; discriminate.
  - exfalso; apply (HO d); reflexivity.
Qed.
Lemma good_run : forall n ops b l b' rs, finite ops -> good n b l -> run b ops = Some (b', rs) ->
  exists l', list_run n l ops rs l' /\ good n b' l'.
Proof.
  induction ops as [|o ops IH]; intros b l b' rs HF HG HR; cbn [run] in HR.
  - injection HR as <- <-. exists l. split; [constructor|auto].
  - pose proof (good_step n b l o HG (fun d E => HF d (or_introl E))) as HS.
    destruct (step b o) as [[b1 r]|]; [|discriminate]. destruct HS as [l1 [S1 G1]].
    destruct (run b1 ops) as [[b2 rs2]|] eqn:E; [|discriminate]. injection HR as <- <-.
    destruct (IH b1 l1 b2 rs2 (fun d C => HF d (or_intror C)) G1 E) as [l' [R G]].
    exists l'. split; [econstructor; eauto|auto].
Qed.
Lemma good_read : forall n b l i, good n b l -> read b i = nth_error (map snd l) i.
Proof.
  intros n b l i [[st [k B]] _]. unfold read. rewrite (i_nv _ _ _ _ B), (i_map _ _ _ _ B), nth_error_map, nth_error_map.
  destruct (Nat.ltb_spec i (length l)).
  - destruct (nth_error l i) as [[p x]|] eqn:E; cbn [option_map fst snd]; [|auto].
    apply (i_get _ _ _ _ B). eapply nth_error_In; eauto.
  - rewrite (proj2 (nth_error_None l i)) by lia. reflexivity.
Qed.
Lemma good_nodup : forall n b l, good n b l -> NoDup (map fst l).
Proof. intros n b l [[st [k B]] _]. eapply NoDup_l, (i_nd _ _ _ _ B). Qed.
End GOOD.

(** Without makeInfinite the Buffer is the list: after any sequence of calls the contents are those
    of the list operations, the size never exceeds the number of entries, and the next call is
    refused exactly if the list operation is not possible. *)
Theorem C20_list_partial : forall (A : Type) (n : nat) (b0 : buf A) (ops : list (bop A)) (b : buf A) (rs : list (option nat)),
  init n = Some b0 -> finite ops -> run b0 ops = Some (b, rs) ->
  exists l, list_run n [] ops rs l
    /\ size b = length l /\ length l <= n /\ num_free b = n - length l
    /\ NoDup (map fst l)
    /\ (forall i, read b i = nth_error (map snd l) i)
    /\ (forall o, (forall d, o <> BInfinite d) -> (step b o = None <-> forall r l', ~ list_step n l o r l')).
Proof.
  intros A n b0 ops b rs HI HF HR. destruct (good_run n ops b0 [] b rs HF (good_init n b0 HI) HR) as [l [R G]].
  exists l. split; [auto|]. pose proof G as [[st [k B]] [P [N F]]].
  split; [apply (i_nv _ _ _ _ B)|]. split; [rewrite <- N; apply (i_len _ _ _ _ B)|].
  split; [unfold num_free; rewrite N, (i_nv _ _ _ _ B); auto|].
  split; [eapply good_nodup; eauto|]. split; [intros i; eapply good_read; eauto|].
  intros o HO. pose proof (good_step n b l o G HO) as HS. destruct (step b o) as [[b' r]|].
  - destruct HS as [l' [S1 _]]. split; [discriminate|]. intros C. exfalso. eapply C; eauto.
  - split; auto.
Qed.
Definition ops20 : list (bop nat) := [BPush 10; BPush 11; BInsert 1 12; BErase 0; BInsert 0 13; BPush 14; BErase 3; BPush 15].
Example C20_list_ex : exists b0 b rs, init 4 = Some b0 /\ finite ops20 /\ run b0 ops20 = Some (b, rs)
  /\ map (read b) [0; 1; 2; 3; 4] = [Some 13; Some 12; Some 11; Some 15; None]
  /\ rs = [Some 0; Some 1; Some 2; None; Some 0; Some 3; None; Some 3] /\ step b (BPush 1) = None.
Proof.
  eexists _, _, _. split; [reflexivity|]. split.
  - intros d C. cbn in C. intuition discriminate.
  - split; [vm_compute; reflexivity|]. vm_compute. auto.
Qed.
Print Assumptions C20_list_partial.

(** Iterators follow their element: as long as the element is in the buffer, its iterator is valid,
    dereferences to its value, sits at its current position, moves to its neighbours and can be
    used to insert before it or to erase it; and an iterator of an element no longer in the buffer
    is invalid while its slot is not used again. *)
Theorem C20_iterators_partial : forall (A : Type) (n : nat) (b0 : buf A) (ops : list (bop A)) (b : buf A) (rs : list (option nat)),
  init n = Some b0 -> finite ops -> run b0 ops = Some (b, rs) ->
  exists l, list_run n [] ops rs l
    /\ (begin b = option_map fst (nth_error l 0))
    /\ (forall p, it_valid b (Some p) = true <-> In p (map fst l))
    /\ (forall j p x, nth_error l j = Some (p, x) ->
          it_deref b (Some p) = Some x
       /\ it_next b (Some p) = Some (option_map fst (nth_error l (S j)))
       /\ it_prev b (Some p) = (match j with 0 => None | S i => Some (option_map fst (nth_error l i)) end)
       /\ (forall i q y, nth_error l i = Some (q, y) -> it_lt b (Some p) (Some q) = (j <? i))
       /\ it_lt b (Some p) None = true
       /\ (forall y, insert_it b (Some p) y = insert b j y)
       /\ (exists b', erase b j = Some b' /\ erase_it b (Some p) = Some (b', option_map fst (nth_error l (S j)))))
    /\ it_prev b None = Some (option_map fst (nth_error l (length l - 1))).
Proof.
  intros A n b0 ops b rs HI HF HR. destruct (good_run n ops b0 [] b rs HF (good_init n b0 HI) HR) as [l [R G]].
  exists l. split; [auto|]. pose proof G as [[st [k B]] [P [N F]]].
  assert (MP : forall j, b_map b j = option_map fst (nth_error l j)) by (intros; rewrite (i_map _ _ _ _ B); apply nth_error_map).
  split; [|split; [|split]].
  - unfold begin. rewrite (i_nv _ _ _ _ B), MP. destruct l; reflexivity.
  - intros p. apply (i_val _ _ _ _ B).
  - intros j p x E.
    assert (EU : nth_error (map fst l) j = Some p) by (rewrite nth_error_map, E; reflexivity).
    assert (V : b_val b p = true) by (apply (i_val _ _ _ _ B); eapply nth_error_In; eauto).
    assert (PH : b_phys b p = j) by (apply P; auto).
    assert (HJ : j < length l) by (apply nth_error_Some; congruence).
    pose proof (i_len _ _ _ _ B) as HL.
    split; [|split; [|split; [|split; [|split; [|split]]]]].
    + cbn [it_deref]. rewrite V. apply (i_get _ _ _ _ B). eapply nth_error_In; eauto.
    + cbn [it_next]. rewrite V, PH, (i_nv _ _ _ _ B), MP. destruct (Nat.ltb_spec (S j) (length l)); [auto|].
      now rewrite (proj2 (nth_error_None l (S j))) by lia.
    + unfold it_prev. cbn [it_valid it_index]. rewrite V, PH. destruct j as [|i]; [reflexivity|].
      rewrite (i_nv _ _ _ _ B), MP. destruct (Nat.ltb_spec i (length l)); [auto|lia].
    + intros i q y E2. unfold it_lt. cbn [it_index]. rewrite PH.
      assert (PQ : b_phys b q = i) by (apply P; rewrite nth_error_map, E2; reflexivity). now rewrite PQ.
    + unfold it_lt. cbn [it_index]. rewrite PH. apply Nat.ltb_lt. lia.
    + intros y. unfold insert_it. cbn [it_index]. now rewrite PH.
    + destruct (erase_ok _ _ _ _ j B HJ) as [b' [st' [f [z [E2 [E3 [B' [N' [F' [_ [P' [_ PF]]]]]]]]]]]].
      rewrite E in E3. injection E3 as <- <-. exists b'. split; [auto|].
      unfold erase_it. cbn [it_index]. rewrite PH, E2, PF, PH. rewrite (i_map _ _ _ _ B'), map_del, nth_del by (rewrite map_length; lia).
      destruct (Nat.ltb_spec j j); [lia|]. now rewrite nth_error_map.
  - unfold it_prev. cbn [it_valid]. rewrite (i_nv _ _ _ _ B), MP. destruct l; [reflexivity|]. reflexivity.
Qed.
Example C20_iterators_ex : exists b0 b rs, init 4 = Some b0 /\ run b0 ops20 = Some (b, rs)
  /\ it_deref b (Some 1) = Some 11 /\ it_next b (Some 1) = Some (Some 3) /\ it_prev b (Some 1) = Some (Some 2)
  /\ it_next b (Some 3) = Some None.
Proof. eexists _, _, _. split; [reflexivity|]. split; [vm_compute; reflexivity|]. vm_compute. auto. Qed.
Print Assumptions C20_iterators_partial.

(** In infinite mode, with push_back, erase and clear only, reads by index still follow the list and
    no push_back is refused. *)
Theorem C20_infinite_push_partial : forall (A : Type) (n d : nat) (b0 : buf A) (ops : list (bop A)),
  init n = Some b0 -> 0 < d ->
  (forall o, In o ops -> match o with BPush _ | BErase _ | BClear => True | _ => False end) ->
  forall b rs, run (make_infinite b0 d) ops = Some (b, rs) ->
  exists l m, list_run m [] ops rs l /\ size b = length l
    /\ (forall i, read b i = nth_error (map snd l) i)
    /\ (forall x, step b (BPush x) <> None).
Proof.
  intros A n d b0 ops HI Hd HO.
  assert (GEN : forall ops (b1 : buf A) l, (exists st k, bi b1 l st k) -> addr_ok b1 l -> b_inf b1 = Some d ->
     (forall o, In o ops -> match o with BPush _ | BErase _ | BClear => True | _ => False end) ->
     forall b rs, run b1 ops = Some (b, rs) ->
     exists l', (forall m, b_n b <= m -> list_run m l ops rs l') /\ (exists st k, bi b l' st k) /\ addr_ok b l' /\ b_inf b = Some d
       /\ b_n b1 <= b_n b).
  { clear b0 HI ops HO. induction ops as [|o ops IH]; intros b1 l [st [k B]] AD F HO b rs HR; cbn [run] in HR.
    - injection HR as <- <-. exists l. split; [constructor|]. split; [eauto|]. split; [auto|]. split; auto.
    - assert (ST : forall b2 r, step b1 o = Some (b2, r) ->
         exists l1, (forall m, b_n b2 <= m -> list_step m l o r l1) /\ (exists st k, bi b2 l1 st k) /\ addr_ok b2 l1
           /\ b_inf b2 = Some d /\ b_n b1 <= b_n b2).
      { intros b2 r E. pose proof (HO o (or_introl eq_refl)) as K. destruct o as [x|i x|i| |d']; try tauto; cbn [step] in E.
        - destruct (push_inf_ok b1 l st k x d B AD F Hd) as [b' [f [st' [k' [E2 [B' [NI [AD' [F' NN]]]]]]]]].
          rewrite E2 in E. cbn [option_map fst snd] in E. injection E as <- <-. exists (l ++ [(f, x)]).
          split; [|split; [eauto|auto]]. intros m Hm. apply LPush; [|auto].
          pose proof (i_len _ _ _ _ B') as Q. rewrite app_length in Q. simpl in Q. lia.
        - destruct (Nat.lt_ge_cases i (length l)) as [L|L]; [|rewrite (erase_refuse _ _ _ _ i B L) in E; discriminate].
          destruct (erase_ok _ _ _ _ i B L) as [b' [st' [f [x [E2 [_ [B' [N' [F' [_ [_ [AD' _]]]]]]]]]]]].
          rewrite E2 in E. cbn [option_map] in E. injection E as <- <-. eexists.
          split; [intros m _; apply LErase; auto|]. split; [eauto|]. split; [apply AD'; auto|]. split; [congruence|lia].
        - destruct (clear_ok _ _ _ _ B) as [b' [E2 [B' [N' F']]]]. rewrite E2 in E. cbn [option_map] in E.
          injection E as <- <-. exists []. split; [constructor|]. split; [eauto|].
          split; [intros j p C; destruct j; discriminate|]. split; [congruence|lia]. }
      destruct (step b1 o) as [[b2 r]|] eqn:E; [|discriminate].
      destruct (ST b2 r eq_refl) as [l1 [S1 [B1 [AD1 [F1 N1]]]]].
      destruct (run b2 ops) as [[b3 rs3]|] eqn:E3; [|discriminate]. injection HR as <- <-.
      destruct (IH b2 l1 B1 AD1 F1 (fun o C => HO o (or_intror C)) b3 rs3 E3) as [l' [R [B' [AD' [F' N']]]]].
      exists l'. split; [|split; [auto|split; [auto|split; [auto|lia]]]].
      intros m Hm. econstructor; [apply S1; lia|apply R; auto]. }
  intros b rs HR. destruct (init_ok _ _ HI) as [B [N F]].
  assert (B' : bi (make_infinite b0 d) [] [] 0) by (destruct B; constructor; auto).
  destruct (GEN ops (make_infinite b0 d) []) with (b := b) (rs := rs) as [l [R [[st [k BB]] [AD [F' _]]]]]; eauto.
  { intros j p C. destruct j; discriminate. }
  exists l, (b_n b). split; [apply R; auto|]. split; [apply (i_nv _ _ _ _ BB)|]. split.
  - intros i. unfold read. rewrite (i_nv _ _ _ _ BB), (i_map _ _ _ _ BB), nth_error_map, nth_error_map.
    destruct (Nat.ltb_spec i (length l)).
    + destruct (nth_error l i) as [[p x]|] eqn:E; cbn [option_map fst snd]; [|auto].
      apply (i_get _ _ _ _ BB). eapply nth_error_In; eauto.
    + rewrite (proj2 (nth_error_None l i)) by lia. reflexivity.
  - intros x. cbn [step]. destruct (push_inf_ok b l st k x d BB AD F' Hd) as [b' [f [st' [k' [E _]]]]]. rewrite E. discriminate.
Qed.
Definition ops20i : list (bop nat) := [BPush 1; BPush 2; BErase 0; BPush 3; BPush 4; BPush 5; BPush 6].
Example C20_infinite_push_ex : exists b0 b rs, init 2 = Some b0 /\ run (make_infinite b0 1) ops20i = Some (b, rs)
  /\ map (read b) [0; 1; 2; 3; 4; 5] = [Some 2; Some 3; Some 4; Some 5; Some 6; None].
Proof. eexists _, _, _. split; [reflexivity|]. split; [vm_compute; reflexivity|]. vm_compute. auto. Qed.
Print Assumptions C20_infinite_push_partial.

(** With insert the contents are wrong after the buffer grows: line 998 records the new slot under
    the wrong index. Pushing 1 and 2, inserting 3 in front and pushing 4 gives 1 1 3 4 in place of
    3 1 2 4. *)
Theorem C20_infinite_insert_refuted : exists b0 b rs,
  init 3 = Some b0 /\ run (make_infinite b0 1) [BPush 1; BPush 2; BInsert 0 3; BPush 4] = Some (b, rs)
  /\ map (read b) [0; 1; 2; 3] = [Some 1; Some 1; Some 3; Some 4]
  /\ (forall l m, list_run m [] [BPush 1; BPush 2; BInsert 0 3; BPush 4] rs l -> map snd l = [3; 1; 2; 4]).
Proof.
  eexists _, _, _. split; [reflexivity|]. split; [vm_compute; reflexivity|]. split; [vm_compute; reflexivity|].
  intros l m H. repeat match goal with
    | C : list_run _ _ (_ :: _) _ _ |- _ => inversion C; clear C; subst
    | C : list_run _ _ [] _ _ |- _ => inversion C; clear C; subst
    | C : list_step _ _ _ _ _ |- _ => inversion C; clear C; subst
    end. reflexivity.
Qed.
Print Assumptions C20_infinite_insert_refuted.

(** Advancing an iterator [k] times. *)
Fixpoint advance {A} (b : buf A) (it : iter) (k : nat) : option iter :=
  match k with 0 => Some it | S k' => match it_next b it with Some it' => advance b it' k' | None => None end end.

(** In infinite mode, once the buffer has grown, walking from begin() never reaches the third
    element nor end(): the move constructor of DataPointer drops physical_idx. *)
Theorem C20_infinite_walk_refuted : exists b0 b rs,
  init 2 = Some b0 /\ run (make_infinite b0 1) [BPush 1; BPush 2; BPush 3] = Some (b, rs)
  /\ size b = 3 /\ read b 2 = Some 3
  /\ forall k, 0 < k -> exists it, advance b (begin b) k = Some it /\ it_deref b it = Some 2.
Proof.
  eexists _, _, _. split; [reflexivity|]. split; [vm_compute; reflexivity|]. split; [reflexivity|]. split; [reflexivity|].
  match goal with |- context [advance ?b0 _ _] => set (b := b0) end.
  assert (L : forall k, advance b (Some 1) k = Some (Some 1)).
  { induction k; [reflexivity|]. cbn [advance]. replace (it_next b (Some 1)) with (Some (Some 1)) by reflexivity. auto. }
  intros k Hk. destruct k; [lia|]. exists (Some 1). split; [|reflexivity].
  cbn [advance]. replace (it_next b (begin b)) with (Some (Some 1)) by reflexivity. apply L.
Qed.
Print Assumptions C20_infinite_walk_refuted.

(** insert(end(), x) does not append: it is refused whatever the contents. *)
Theorem C20_insert_end_refuted : forall (A : Type) (n : nat) (b0 : buf A) (ops : list (bop A)) (b : buf A) rs x,
  init n = Some b0 -> finite ops -> run b0 ops = Some (b, rs) -> insert_it b None x = None.
Proof.
  intros A n b0 ops b rs x HI HF HR. destruct (good_run n ops b0 [] b rs HF (good_init n b0 HI) HR) as [l [R G]].
  pose proof G as [[st [k B]] [P [N F]]]. unfold insert_it. cbn [it_index].
  apply (insert_refuse _ _ _ _ _ x B F). pose proof (i_len _ _ _ _ B). lia.
Qed.
Example C20_insert_end_ex : exists b0 b rs, init 4 = Some b0 /\ run b0 [BPush 1] = Some (b, rs) /\ num_free b = 3
  /\ insert_it b None 2 = None /\ insert b 1 2 <> None.
Proof. eexists _, _, _. split; [reflexivity|]. split; [vm_compute; reflexivity|]. split; [reflexivity|]. split; [reflexivity|discriminate]. Qed.
Print Assumptions C20_insert_end_refuted.

(** Stale iterators: the documentation (52-64) says that erasing through the iterator of an element
    already erased throws. The example given there erases another element. *)
Theorem C20_erase_stale_refuted : exists b0 b rs b' it,
  init 4 = Some b0 /\ run b0 [BPush 3; BPush 5; BPush 1; BErase 1] = Some (b, rs)
  /\ nth_error rs 1 = Some (Some 1) /\ it_valid b (Some 1) = false
  /\ map (read b) [0; 1] = [Some 3; Some 1]
  /\ erase_it b (Some 1) = Some (b', it) /\ size b' = 1 /\ read b' 0 = Some 3.
Proof.
  eexists _, _, _, _, _. split; [reflexivity|]. split; [vm_compute; reflexivity|]. split; [reflexivity|]. split; [reflexivity|].
  split; [reflexivity|]. split; [vm_compute; reflexivity|]. split; reflexivity.
Qed.
Print Assumptions C20_erase_stale_refuted.

(** The iterator of an erased element becomes valid again, with another value, when its slot is
    used by a later push_back. *)
Theorem C20_reused_iterator_refuted : exists b0 b rs,
  init 4 = Some b0 /\ run b0 [BPush 3; BErase 0; BPush 7] = Some (b, rs)
  /\ nth_error rs 0 = Some (Some 0) /\ it_valid b (Some 0) = true /\ it_deref b (Some 0) = Some 7.
Proof. eexists _, _, _. split; [reflexivity|]. split; [vm_compute; reflexivity|]. split; [reflexivity|]. split; reflexivity. Qed.
Print Assumptions C20_reused_iterator_refuted.
