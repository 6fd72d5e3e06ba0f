(** Property C21: sparta::CircularBuffer. *)
From Coq Require Import List NArith Arith Bool Lia.
From Verif Require Import CircularBufferModel CircularBufferProofs.
Import ListNotations.
Open Scope nat_scope.

(* The last n elements of a list. *)
Definition lastn {A} (n : nat) (l : list A) : list A := skipn (length l - n) l.

Section SPEC.
Context {A : Type}.
Definition spec_step (n : nat) (l : list A) (o : cop A) : option (list A) :=
  match o with
  | CPush a => Some (lastn n (l ++ [a]))
  | CInsert i a => match l with
                   | [] => if i =? 0 then Some (lastn n [a]) else None
                   | _ => if i <? length l then Some (firstn i l ++ a :: skipn i l) else None
                   end
  | CErase i => if i <? length l then Some (firstn i l ++ skipn (S i) l) else None
  | CClear => Some []
  end.
Fixpoint spec (n : nat) (l : list A) (ops : list (cop A)) : option (list A) :=
  match ops with [] => Some l | o :: r => match spec_step n l o with Some l' => spec n l' r | None => None end end.
(* No insert into a full buffer. *)
Fixpoint fits (n : nat) (l : list A) (ops : list (cop A)) : Prop :=
  match ops with
  | [] => True
  | o :: r => match o with CInsert _ _ => l = [] \/ length l < n | _ => True end /\
              match spec_step n l o with Some l' => fits n l' r | None => True end
  end.
(* How far a call moves the window index. *)
Definition cost (n : nat) (o : cop A) : N :=
  match o with CPush _ => 1 | CClear => 0 | _ => N.of_nat n + 2 end.
Fixpoint costs (n : nat) (ops : list (cop A)) : N := match ops with [] => 0 | o :: r => cost n o + costs n r end%N.
End SPEC.

Lemma lastn_push : forall {A} n (l : list A) a, length l <= n ->
  (if length l =? n then tl (l ++ [a]) else l ++ [a]) = lastn n (l ++ [a]).
Proof.
  intros A n l a H. unfold lastn. rewrite app_length. simpl length. destruct (Nat.eqb_spec (length l) n).
  - replace (length l + 1 - n) with 1 by lia. destruct (l ++ [a]); reflexivity.
  - replace (length l + 1 - n) with 0 by lia. reflexivity.
Qed.
Lemma lastn_len : forall {A} n (l : list A), length (lastn n l) <= n.
Proof. intros. unfold lastn. rewrite skipn_length. lia. Qed.

Lemma step_ok : forall A n (b : cb A) l o, CI b l -> b_max b = n -> length l <= n -> (b_end b + cost n o < 2 ^ 32)%N ->
  match o with CInsert _ _ => l = [] \/ length l < n | _ => True end ->
  match cb_step b o, spec_step n l o with
  | Some b', Some l' => CI b' l' /\ b_max b' = n /\ length l' <= n /\ (b_end b' <= b_end b + cost n o)%N /\
      (b_start b <= b_start b')%N /\ match o with CPush _ => b_start b' = if length l =? n then (b_start b + 1)%N else b_start b
                                     | CInsert _ _ => l <> [] -> (b_end b <= b_start b')%N
                                     | _ => (b_end b <= b_start b')%N end
  | None, None => True
  | _, _ => False
  end.
Proof.
  intros A n b l o I HM HL HB HF.
  assert (HP : forall a, (b_end b + 1 < 2 ^ 32)%N -> exists b', cb_push b a = Some b' /\ CI b' (lastn n (l ++ [a])) /\ b_max b' = n /\ length (lastn n (l ++ [a])) <= n /\
     (b_end b' = b_end b + 1)%N /\ b_start b' = if length l =? n then (b_start b + 1)%N else b_start b).
  { intros a HB'. destruct (push_ok b l a I) as (b' & E & M & E2 & I' & S' & _). exists b'. rewrite HM in I', S'. rewrite lastn_push in I' by auto.
    split; auto. split; auto. split; [congruence|]. split; [apply lastn_len|]. split; auto. }
  assert (ES : forall b' : cb A, b_start b' = (if length l =? n then (b_start b + 1)%N else b_start b) -> (b_start b <= b_start b')%N).
  { intros b' ->. destruct (length l =? n); lia. }
  destruct o as [a|i a|i|]; cbn [cb_step spec_step cost] in *.
  - destruct (HP a HB) as (b' & -> & H1 & H2 & H3 & H4 & H5). repeat (split; auto). lia.
  - rewrite (it_at_pos b l) by (auto; lia). destruct l as [|x l].
    + simpl length. destruct (Nat.leb_spec i 0), (Nat.eqb_spec i 0); try lia; auto.
      rewrite insert_empty by auto. destruct (HP a ltac:(lia)) as (b' & -> & H1 & H2 & H3 & H4 & H5). simpl.
      split; auto. split; auto. split; auto. split; [lia|]. split; auto. congruence.
    + destruct (Nat.leb_spec i (length (x :: l))).
      * destruct (Nat.ltb_spec i (length (x :: l))).
        -- destruct (insert_ok b (x :: l) i a I ltac:(lia) H0) as (b' & it & -> & H1 & H2 & H3 & H4 & _).
           destruct HF as [HF|HF]; [discriminate|]. cbn [option_map fst]. split; auto. split; [congruence|].
           split; [rewrite app_length, firstn_length; cbn [length]; rewrite skipn_length; cbn [length] in *; lia|]. split; [lia|].
           split; [rewrite H3, (C_end _ _ I); lia|]. intros _. lia.
        -- assert (i = length (x :: l)) by lia. subst i. unfold cb_insert. rewrite end_invalid by (auto; lia).
           pose proof (CI_len _ _ I) as K. destruct (b_cells b); [discriminate|]. simpl. auto.
      * destruct (Nat.ltb_spec i (length (x :: l))); [lia|auto].
  - rewrite (it_at_pos b l) by (auto; lia). destruct (Nat.leb_spec i (length l)), (Nat.ltb_spec i (length l)); try lia; auto.
    + destruct (erase_ok b l i I ltac:(lia) H0) as (b' & -> & H1 & H2 & H3 & H4). split; auto. split; [congruence|].
      split; [rewrite app_length, firstn_length, skipn_length; lia|]. split; [lia|]. rewrite H3, (C_end _ _ I). lia.
    + assert (i = length l) by lia. subst i. unfold cb_erase. rewrite end_invalid by (auto; lia). auto.
  - split; [eapply clear_ok; eauto|]. simpl. split; auto. split; [lia|]. split; [lia|]. rewrite (C_end _ _ I). lia.
Qed.

Lemma run_ok : forall A n ops (b : cb A) l, CI b l -> b_max b = n -> length l <= n -> (b_end b + costs n ops < 2 ^ 32)%N -> fits n l ops ->
  match cb_run b ops, spec n l ops with
  | Some b', Some l' => CI b' l' /\ b_max b' = n /\ length l' <= n /\ (b_end b' <= b_end b + costs n ops)%N /\ (b_start b <= b_start b')%N
  | None, None => True
  | _, _ => False
  end.
Proof.
  induction ops as [|o ops IH]; intros b l I HM HL HB HF; cbn [cb_run spec costs fits] in *.
  - split; auto. split; auto. split; auto. split; lia.
  - destruct HF as [HF1 HF2]. pose proof (step_ok A n b l o I HM HL ltac:(lia) HF1) as H.
    destruct (cb_step b o) as [b'|]; destruct (spec_step n l o) as [l'|]; try easy.
    destruct H as (H1 & H2 & H3 & H4 & H5 & _). specialize (IH b' l' H1 H2 H3 ltac:(lia) HF2).
    destruct (cb_run b' ops); destruct (spec n l' ops); auto. destruct IH as (? & ? & ? & ? & ?). repeat (split; auto); lia.
Qed.

(* Contents after any call sequence that never inserts into a full buffer and moves the window by
   less than 2^32. *)
Theorem C21_contents_partial : forall A n (ops : list (cop A)),
  fits n [] ops -> (costs n ops < 2 ^ 32)%N ->
  match cb_run (cb_init n) ops, spec n [] ops with
  | Some b, Some l => cb_size b = length l /\ length l <= n /\ forall i, cb_index b i = nth_error l i
  | None, None => True
  | _, _ => False
  end.
Proof.
  intros A n ops HF HB. pose proof (run_ok A n ops (cb_init n) [] (init_ok n) eq_refl ltac:(simpl; lia) ltac:(simpl; lia) HF) as H.
  destruct (cb_run (cb_init n) ops) as [b|]; destruct (spec n [] ops) as [l|]; try easy.
  destruct H as (I & _ & HL & HE & _). simpl b_end in HE. split; [apply I|]. split; auto. intros i. unfold cb_index, cb_size. rewrite (C_valid _ _ I).
  destruct (Nat.ltb_spec i (length l)).
  - rewrite (it_at_pos b l) by (auto; lia). destruct (Nat.leb_spec i (length l)); [|lia]. apply deref_pos; auto. lia.
  - symmetry. apply nth_error_None. lia.
Qed.
Example C21_contents_ex :
  let ops := [CPush 1; CPush 2; CPush 3; CPush 4; CErase 1; CInsert 0 7; CPush 5] in
  fits 3 [] ops /\ (costs 3 ops < 2 ^ 32)%N /\ spec 3 [] ops = Some [2; 4; 5] /\
  match cb_run (cb_init 3) ops with Some b => map (cb_index b) [0; 1; 2; 3] = [Some 2; Some 4; Some 5; None] | None => False end.
Proof. split; [cbn; repeat split; auto; lia|]. split; [vm_compute; reflexivity|]. split; vm_compute; reflexivity. Qed.
Print Assumptions C21_contents_partial.

(* Only push_back: exactly the last min(n,k) values. *)
Theorem C21_push_only_partial : forall A n (xs : list A), (N.of_nat (length xs) < 2 ^ 32)%N ->
  exists b, cb_run (cb_init n) (map CPush xs) = Some b /\ cb_size b = Nat.min n (length xs) /\
    forall i, cb_index b i = nth_error (lastn n xs) i.
Proof.
  intros A n xs HB.
  assert (HS : forall xs l : list A, spec n (lastn n l) (map CPush xs) = Some (lastn n (l ++ xs))).
  { clear. induction xs as [|x xs IH]; intros l; cbn [map spec spec_step]; [rewrite app_nil_r; auto|].
    replace (lastn n (lastn n l ++ [x])) with (lastn n (l ++ [x])).
    - rewrite IH, <- app_assoc. reflexivity.
    - unfold lastn. rewrite !app_length, !skipn_length. simpl length. destruct (Nat.le_gt_cases (length l) n).
      + replace (length l - n) with 0 by lia. simpl. f_equal. lia.
      + replace (length l - (length l - n) + 1 - n) with 1 by lia. replace (length l + 1 - n) with (S (length l - n)) by lia.
        replace (l ++ [x]) with (firstn (length l - n) l ++ (skipn (length l - n) l ++ [x])) by (rewrite app_assoc, firstn_skipn; auto).
        rewrite skipn_app, firstn_length. rewrite skipn_all2 by (rewrite firstn_length; lia).
        replace (S (length l - n) - Nat.min (length l - n) (length l)) with 1 by lia. reflexivity. }
  assert (HF : forall xs l : list A, fits n l (map CPush xs)) by (clear; induction xs; intros; cbn; auto).
  assert (HC : costs n (map CPush xs) = N.of_nat (length xs)).
  { clear. induction xs; auto. cbn [map costs length]. rewrite IHxs. cbn [cost]. lia. }
  pose proof (C21_contents_partial A n (map CPush xs) (HF xs []) ltac:(lia)) as H.
  specialize (HS xs []). change (lastn n []) with (@nil A) in HS at 1 || (replace (lastn n []) with (@nil A) in HS by (unfold lastn; destruct n; reflexivity)).
  rewrite HS in H. destruct (cb_run (cb_init n) (map CPush xs)) as [b|]; [|easy]. destruct H as (H1 & H2 & H3). exists b. split; auto.
  split; auto. rewrite H1. simpl app. unfold lastn. rewrite skipn_length. lia.
Qed.
Example C21_push_only_ex : lastn 3 [1; 2; 3; 4; 5] = [3; 4; 5] /\
  match cb_run (cb_init 3) (map CPush [1; 2; 3; 4; 5]) with Some b => map (cb_index b) [0; 1; 2] = [Some 3; Some 4; Some 5] | None => False end.
Proof. split; vm_compute; reflexivity. Qed.
Print Assumptions C21_push_only_partial.

(* An iterator obtained at position i stays valid exactly until its element is evicted or the buffer
   is modified other than by push_back, and designates the same element until then. *)
Definition is_push {A} (o : cop A) : bool := match o with CPush _ => true | _ => false end.

Lemma it_stays : forall A n ops (b : cb A) l it i c, CI b l -> b_max b = n -> length l <= n -> (b_end b + costs n ops < 2 ^ 32)%N -> fits n l ops ->
  forall b', cb_run b ops = Some b' ->
  nth_error (b_cells b) i = Some c -> it = mkIt (Some (c_node c)) (c_win c) ->
  (it_valid b' it = true <-> forallb is_push ops = true /\ length l + length ops - n <= i) /\
  (it_valid b' it = true -> it_deref b' it = Some (c_data c)).
Proof.
  induction ops as [|o ops IH]; intros b l it i c I HM HL HB HF b' HR Hc Hit.
  - injection HR as <-. simpl. assert (Hi : i < length l) by (rewrite <- (CI_len _ _ I); apply nth_error_Some; congruence).
    destruct (nth_cell b l i I Hi) as (c' & Hc' & Hl & Hw). assert (c' = c) by congruence. subst c'.
    assert (it = it_pos b l i) by (rewrite Hit, Hw; unfold it_pos; rewrite Hc; reflexivity). subst it. rewrite H.
    simpl in HB. pose proof (deref_pos b l i I ltac:(lia)) as HD. rewrite Hl in HD.
    assert (V : it_valid b (it_pos b l i) = true) by (unfold it_deref in HD; destruct (it_valid b (it_pos b l i)); [auto|discriminate]).
    rewrite V. split; [|intros _; auto]. split; auto. intros _. split; auto. lia.
  - cbn [cb_run fits costs] in *. destruct HF as [HF1 HF2]. pose proof (step_ok A n b l o I HM HL ltac:(lia) HF1) as H.
    destruct (cb_step b o) as [b1|] eqn:ES; [|discriminate]. destruct (spec_step n l o) as [l1|] eqn:ESp; [|easy].
    destruct H as (H1 & H2 & H3 & H4 & H5 & H6).
    assert (Hi : i < length l) by (rewrite <- (CI_len _ _ I); apply nth_error_Some; congruence).
    destruct (nth_cell b l i I Hi) as (c' & Hc' & Hl & Hw). assert (c' = c) by congruence. subst c'.
    (* an iterator below the window stays invalid *)
    assert (Dead : (c_win c < b_start b1)%N -> it_valid b' it = false).
    { intros HD. pose proof (run_ok A n ops b1 l1 H1 H2 H3 ltac:(lia) HF2) as HR2. rewrite HR in HR2.
      destruct (spec n l1 ops) as [l2|]; [|easy]. destruct HR2 as (_ & _ & _ & _ & HS). unfold it_valid, valid_win. rewrite Hit. cbn [it_win].
      rewrite N.mod_small by (rewrite (C_end _ _ I) in HB; lia).
      destruct (N.leb_spec (b_start b') (c_win c)); [lia|]. reflexivity. }
    destruct o as [a|j a|j|].
    + cbn [cb_step] in ES. destruct (push_ok b l a I) as (b1' & E & _ & _ & _ & HS1 & HK). rewrite ES in E. injection E as <-.
      cbn [spec_step] in ESp. injection ESp as <-.
      destruct (Nat.eqb_spec (length l) n) as [EQ|NE].
      * (* full: the first element goes *)
        destruct i as [|i].
        -- rewrite Dead by lia. split; [split; [discriminate|]|discriminate]. intros [_ K]. simpl length in K. lia.
        -- assert (Hin : In c (b_cells b1)) by (apply HK; [eapply nth_error_In; eauto|lia]).
           apply In_nth_error in Hin. destruct Hin as (k & Hk).
           assert (Hkl : k < length (lastn n (l ++ [a]))) by (rewrite <- (CI_len _ _ H1); apply nth_error_Some; congruence).
           destruct (nth_cell b1 _ k H1 Hkl) as (c'' & Hc'' & _ & Hw''). assert (c'' = c) by congruence. subst c''.
           assert (k = i) by lia. subst k. pose proof (lastn_len n (l ++ [a])).
           destruct (IH b1 _ it i c H1 H2 H3 ltac:(lia) HF2 b' HR Hk Hit) as [IH1 IH2]. split; auto. rewrite IH1.
           assert (length (lastn n (l ++ [a])) = n) by (unfold lastn; rewrite skipn_length, app_length; simpl; lia).
           cbn [forallb is_push]. rewrite andb_true_l. simpl length. split; intros [K1 K2]; (split; [auto|lia]).
      * assert (Hin : In c (b_cells b1)) by (apply HK; [eapply nth_error_In; eauto|lia]).
        apply In_nth_error in Hin. destruct Hin as (k & Hk).
        assert (Hkl : k < length (lastn n (l ++ [a]))) by (rewrite <- (CI_len _ _ H1); apply nth_error_Some; congruence).
        destruct (nth_cell b1 _ k H1 Hkl) as (c'' & Hc'' & _ & Hw''). assert (c'' = c) by congruence. subst c''.
        assert (k = i) by lia. subst k.
        destruct (IH b1 _ it i c H1 H2 H3 ltac:(lia) HF2 b' HR Hk Hit) as [IH1 IH2]. split; auto. rewrite IH1.
        assert (length (lastn n (l ++ [a])) = S (length l)) by (unfold lastn; rewrite skipn_length, app_length; simpl; lia).
        cbn [forallb is_push]. rewrite andb_true_l. simpl length. split; intros [K1 K2]; (split; [auto|lia]).
    + rewrite Dead; [split; [split; [discriminate|intros [K _]; discriminate]|discriminate]|].
      rewrite (C_end _ _ I) in H6. destruct l; [simpl in Hi; lia|]. specialize (H6 ltac:(discriminate)). lia.
    + rewrite Dead; [split; [split; [discriminate|intros [K _]; discriminate]|discriminate]|]. rewrite (C_end _ _ I) in H6. lia.
    + rewrite Dead; [split; [split; [discriminate|intros [K _]; discriminate]|discriminate]|]. rewrite (C_end _ _ I) in H6. lia.
Qed.

Theorem C21_iterators_partial : forall A n (ops1 ops2 : list (cop A)) b1 l1 i x it b2,
  fits n [] (ops1 ++ ops2) -> (costs n (ops1 ++ ops2) < 2 ^ 32)%N ->
  cb_run (cb_init n) ops1 = Some b1 -> spec n [] ops1 = Some l1 -> nth_error l1 i = Some x -> it_at b1 i = Some it ->
  cb_run b1 ops2 = Some b2 ->
  (it_valid b2 it = true <-> forallb is_push ops2 = true /\ length l1 + length ops2 - n <= i) /\
  (it_valid b2 it = true -> it_deref b2 it = Some x).
Proof.
  intros A n ops1 ops2 b1 l1 i x it b2 HF HB R1 S1 Hx Hat R2.
  assert (HFs : forall ops1 l l1, spec n l ops1 = Some l1 -> fits n l (ops1 ++ ops2) -> fits n l ops1 /\ fits n l1 ops2).
  { clear. induction ops1 as [|o ops1 IH]; intros l l1 S F; cbn [app spec fits] in *; [injection S as <-; auto|].
    destruct F as [F1 F2]. destruct (spec_step n l o) as [l'|]; [|discriminate]. destruct (IH _ _ S F2). auto. }
  assert (HC : costs n (ops1 ++ ops2) = (costs n ops1 + costs n ops2)%N) by (clear; induction ops1; simpl; auto; lia).
  destruct (HFs _ _ _ S1 HF) as [F1 F2].
  pose proof (run_ok A n ops1 (cb_init n) [] (init_ok n) eq_refl ltac:(simpl; lia) ltac:(simpl; lia) F1) as H.
  rewrite R1, S1 in H. destruct H as (I & HM & HL & HE & _). simpl b_end in HE.
  assert (Hi : i < length l1) by (apply nth_error_Some; congruence).
  destruct (nth_cell b1 l1 i I Hi) as (c & Hc & Hl & Hw). rewrite (it_at_pos b1 l1) in Hat by (auto; lia).
  destruct (Nat.leb_spec i (length l1)); [|lia]. injection Hat as <-.
  assert (x = c_data c) by congruence. subst x.
  apply (it_stays A n ops2 b1 l1 _ i c I HM HL ltac:(lia) F2 b2 R2 Hc). unfold it_pos. rewrite Hc, Hw. reflexivity.
Qed.
(* Capacity 3: the iterator to 2 survives one push after the buffer is full, not two. *)
Example C21_iterators_ex : exists b1 it b2 b3, cb_run (cb_init 3) [CPush 1; CPush 2; CPush 3] = Some b1 /\ it_at b1 1 = Some it /\
  cb_run b1 [CPush 4] = Some b2 /\ it_deref b2 it = Some 2 /\ cb_run b1 [CPush 4; CPush 5] = Some b3 /\ it_valid b3 it = false.
Proof. do 4 eexists. split; [vm_compute; reflexivity|]. split; [vm_compute; reflexivity|]. split; [vm_compute; reflexivity|].
  split; [vm_compute; reflexivity|]. split; vm_compute; reflexivity. Qed.
Print Assumptions C21_iterators_partial.

(* The capacity bound is broken by insert into a full buffer, and then for good. *)
Theorem C21_insert_overflow_refuted : exists b3 b4 : cb nat,
  cb_run (cb_init 2) [CPush 1; CPush 2; CInsert 0 3] = Some b3 /\ cb_size b3 = 3 /\
  cb_run b3 [CPush 4] = Some b4 /\ cb_size b4 = 4 /\ b_max b4 = 2.
Proof. do 2 eexists. split; [vm_compute; reflexivity|]. split; [vm_compute; reflexivity|]. split; vm_compute; auto. Qed.
Print Assumptions C21_insert_overflow_refuted.

(* After more than 2^32 calls of push_back the buffer is unusable: begin() is invalid and indexing fails,
   because isValidIterator_ takes its argument as uint32_t. *)
Lemma churn : forall m, exists b : cb nat, cb_run (cb_init 1) (map CPush (repeat 0 (S m))) = Some b /\ CI b [0] /\
   b_max b = 1 /\ b_start b = N.of_nat m.
Proof.
  induction m.
  - eexists. split; [vm_compute; reflexivity|]. split; [|split; reflexivity]. constructor; simpl; auto.
    + repeat constructor; simpl; tauto.
    + intros c [<-|[]]; simpl; lia.
  - destruct IHm as (b & R & I & M & S0). destruct (push_ok b [0] 0 I) as (b' & E & M' & E2 & I' & S' & _).
    rewrite M in I', S'. simpl in I', S'. exists b'. split; [|split; [auto|split; [congruence|rewrite S', S0; lia]]].
    change (repeat 0 (S (S m))) with (0 :: repeat 0 (S m)). rewrite repeat_cons, map_app.
    assert (RA : forall ops1 ops2 (c : cb nat), cb_run c (ops1 ++ ops2) = match cb_run c ops1 with Some c' => cb_run c' ops2 | None => None end).
    { clear. induction ops1; intros; simpl; auto. destruct (cb_step c a); auto. }
    rewrite RA, R. simpl. rewrite E. reflexivity.
Qed.
Lemma wrap_any : forall m, N.of_nat m = (2 ^ 32)%N -> exists (ops : list (cop nat)) b, cb_run (cb_init 1) ops = Some b /\
  forallb is_push ops = true /\ cb_size b = 1 /\ it_valid b (cb_begin b) = false /\ cb_index b 0 = None.
Proof.
  intros m Hm. destruct (churn m) as (b & R & I & M & S0). rewrite Hm in S0.
  exists (map CPush (repeat 0 (S m))), b. split; [exact R|].
  split; [generalize (repeat 0 (S m)); intros xs; induction xs; auto|].
  assert (Z : cb_size b = 1) by (apply (C_valid _ _ I)). split; [exact Z|].
  assert (V : it_valid b (cb_begin b) = false).
  { rewrite (begin_pos b [0] I). unfold it_valid, it_pos, valid_win. cbn [it_win]. rewrite S0. reflexivity. }
  split; [exact V|]. unfold cb_index. rewrite Z. change (0 <? 1) with true. cbv iota. unfold it_at. cbn [advance]. unfold it_deref. rewrite V. reflexivity.
Qed.
Theorem C21_window_wrap_refuted : exists (ops : list (cop nat)) b, cb_run (cb_init 1) ops = Some b /\
  forallb is_push ops = true /\ cb_size b = 1 /\ it_valid b (cb_begin b) = false /\ cb_index b 0 = None.
Proof. exact (wrap_any (N.to_nat (2 ^ 32)) (N2Nat.id (2 ^ 32))). Qed.
Print Assumptions C21_window_wrap_refuted.
