(** C85: interned strings are equal exactly if their pointers are. *)
From Coq Require Import List NArith Bool Arith String Lia.
From Verif Require Import StringMgrModel.
Import ListNotations.

(** The longest string of a list. *)
Definition longest (l : list string) : N := fold_right (fun s m => N.max (size s) m) 0%N l.

Lemma look_in s l p : look s l = Some p -> In (s, p) l.
Proof.
  induction l as [|[k q] l IH]; cbn; [discriminate|]. destruct (String.eqb_spec k s) as [->|]; [intros E; injection E as ->; auto|auto].
Qed.
Lemma look_none s l : look s l = None <-> ~ In s (map fst l).
Proof.
  induction l as [|[k q] l IH]; cbn; [intuition discriminate|]. destruct (String.eqb_spec k s) as [->|NE].
  - split; [discriminate|tauto].
  - rewrite IH. intuition.
Qed.
Lemma look_some s p l : NoDup (map fst l) -> In (s, p) l -> look s l = Some p.
Proof.
  induction l as [|[k q] l IH]; cbn; [tauto|]. intros N [E|H]; inversion N; subst.
  - injection E as -> ->. rewrite String.eqb_refl. reflexivity.
  - destruct (String.eqb_spec k s) as [->|]; [|auto]. exfalso. apply H2. apply in_map_iff. exists (s, p). auto.
Qed.

Record ok (g : mgr) : Prop := mkO {
  o_key : NoDup (map fst (g_map g));
  o_adr : NoDup (map snd (g_map g));
  o_lt : forall s p, In (s, p) (g_map g) -> p < g_next g;
  o_mem : forall s p, In (s, p) (g_map g) -> g_mem g p = s }.
(** Nothing is taken out. *)
Definition grows (g g' : mgr) : Prop := forall s p, look s (g_map g) = Some p -> look s (g_map g') = Some p.

Lemma intern_ok g s g' p : ok g -> intern g s = (g', p) -> ok g' /\ look s (g_map g') = Some p /\ grows g g' /\
  (forall t, In t (map fst (g_map g')) <-> In t (map fst (g_map g)) \/ t = s) /\
  ((size s < 2 ^ 32)%N -> (size s <= g_len g)%N \/ ~ In s (map fst (g_map g)) -> g_len g' = N.max (g_len g) (size s)).
Proof.
  intros [K A L M] E. unfold intern, find_string in E. destruct (look s (g_map g)) as [q|] eqn:EL.
  - injection E as <- <-. split; [constructor; auto|]. split; [auto|]. split; [intros t r; auto|].
    assert (IN : In s (map fst (g_map g))) by (apply in_map_iff; exists (s, q); split; [reflexivity|apply look_in; auto]).
    split; [|intros _ [H|H]; [lia|contradiction]].
    intros t. split; [auto|]. intros [H| ->]; auto.
  - injection E as <- <-. pose proof EL as NI. apply look_none in NI. split; [|split; [|split; [|split]]].
    + constructor; cbn.
      * constructor; auto.
      * constructor; auto. intros H. apply in_map_iff in H as ([t q] & Eq & H). cbn in Eq. subst. apply L in H. lia.
      * intros t q [H|H]; [injection H as _ <-; lia|]. apply L in H. lia.
      * intros t q [H|H]; [injection H as <- <-; rewrite Nat.eqb_refl; reflexivity|]. pose proof (L _ _ H).
        destruct (Nat.eqb_spec q (g_next g)); [lia|auto].
    + cbn. rewrite String.eqb_refl. reflexivity.
    + intros t r H. cbn. destruct (String.eqb_spec s t) as [->|]; [congruence|auto].
    + intros t. cbn. intuition.
    + intros B _. cbn [g_len]. rewrite N.mod_small by auto. reflexivity.
Qed.
Lemma interns_ok l : forall g g' ps, ok g -> interns g l = (g', ps) -> ok g' /\ grows g g' /\ List.length ps = List.length l /\
  (forall i s p, nth_error l i = Some s -> nth_error ps i = Some p -> look s (g_map g') = Some p) /\
  (forall t, In t (map fst (g_map g')) <-> In t (map fst (g_map g)) \/ In t l).
Proof.
  induction l as [|s l IH]; intros g g' ps O E; cbn in E.
  - injection E as <- <-. split; auto. split; [intros t r; auto|]. split; auto. split; [intros [|]; discriminate|]. cbn. tauto.
  - destruct (intern g s) as [g1 p] eqn:E1. destruct (interns g1 l) as [g2 qs] eqn:E2. injection E as <- <-.
    destruct (intern_ok _ _ _ _ O E1) as (O1 & L1 & G1 & D1 & _). destruct (IH _ _ _ O1 E2) as (O2 & G2 & N2 & P2 & D2).
    split; auto. split; [intros t r H; auto|]. split; [cbn; auto|]. split.
    + intros [|i] t r A B; cbn in A, B; [injection A as <-; injection B as <-; auto|eauto].
    + intros t. rewrite D2, D1. cbn. split; intros H; repeat destruct H as [H|H]; subst; auto.
Qed.
Lemma construct_ok : ok (fst construct) /\ look EmptyString (g_map (fst construct)) = Some (snd construct).
Proof.
  split; [|reflexivity]. constructor; cbn.
  - repeat constructor; auto.
  - repeat constructor; auto.
  - intros s p [H|[]]. injection H as <- <-. lia.
  - intros s p [H|[]]. injection H as <- <-. reflexivity.
Qed.

(** However many strings are interned: two of the pointers are equal exactly if
    the strings are, each points to its string, and each is what findString and a
    further internString give. *)
Theorem C85_pointers : forall l g ps i j s t p q, interns (fst construct) l = (g, ps) ->
  nth_error l i = Some s -> nth_error l j = Some t -> nth_error ps i = Some p -> nth_error ps j = Some q ->
  (p = q <-> s = t) /\ g_mem g p = s /\ find_string g s = Some p /\ intern g s = (g, p) /\ is_interned g p = true.
Proof.
  intros l g ps i j s t p q E Si Tj Pi Qj. destruct construct_ok as [O0 _]. destruct (interns_ok _ _ _ _ O0 E) as (O & _ & _ & P & _).
  pose proof (P _ _ _ Si Pi) as LS. pose proof (P _ _ _ Tj Qj) as LT. pose proof (look_in _ _ _ LS) as IS. pose proof (look_in _ _ _ LT) as IT.
  split; [|split; [apply (o_mem _ O); auto|split; [exact LS|split]]].
  - split; [intros <-|intros <-; congruence]. rewrite <- (o_mem _ O _ _ IS). apply (o_mem _ O _ _ IT).
  - unfold intern, find_string. rewrite LS. reflexivity.
  - unfold is_interned. apply existsb_exists. exists (s, p). split; auto. apply Nat.eqb_refl.
Qed.
Print Assumptions C85_pointers.

Example C85_pointers_ex : let '(g, ps) := interns (fst construct) ["a"; ""; "bc"; "a"]%string in
  ps = [1; 0; 2; 1] /\ snd construct = 0 /\ g_mem g 2 = "bc"%string /\ is_interned g 3 = false.
Proof. vm_compute. auto. Qed.

(** The strings known are those interned and the empty one, each counted once;
    a pointer is known exactly if it was given for one of them. *)
Theorem C85_known : forall l g ps, interns (fst construct) l = (g, ps) ->
  (forall s, has_string g s = true <-> s = EmptyString \/ In s l) /\
  (forall p, is_interned g p = true <-> p = snd construct \/ In p ps) /\
  ((N.of_nat (List.length l) + 1 < 2 ^ 32)%N -> exists d, NoDup d /\ (forall s, In s d <-> s = EmptyString \/ In s l) /\ num_strings g = N.of_nat (List.length d)).
Proof.
  intros l g ps E. destruct construct_ok as [O0 L0]. destruct (interns_ok _ _ _ _ O0 E) as (O & G & NP & P & D).
  assert (DD : forall t, In t (map fst (g_map g)) <-> t = EmptyString \/ In t l).
  { intros t. rewrite D. cbn. split; intros H; repeat destruct H as [H|H]; subst; auto; contradiction. }
  split; [|split].
  - intros s. unfold has_string, find_string. rewrite <- DD. destruct (look s (g_map g)) as [p|] eqn:EL.
    + split; auto. intros _. apply look_in in EL. apply in_map_iff. exists (s, p). auto.
    + apply look_none in EL. split; [discriminate|tauto].
  - intros p. unfold is_interned. rewrite existsb_exists. split.
    + intros ([s q] & H & Q). cbn in Q. apply Nat.eqb_eq in Q. subst q.
      assert (K : In s (map fst (g_map g))) by (apply in_map_iff; exists (s, p); auto). pose proof (look_some _ _ _ (o_key _ O) H) as LS.
      apply DD in K as [->|K]; [left; apply G in L0; congruence|]. right. apply In_nth_error in K as [i Hi].
      destruct (nth_error ps i) as [q|] eqn:Eq.
      * pose proof (P _ _ _ Hi Eq). apply nth_error_In with i. congruence.
      * apply nth_error_None in Eq. assert (i < List.length l) by (apply nth_error_Some; congruence). lia.
    + intros [->|H].
      * apply G in L0. apply look_in in L0. eexists. split; [exact L0|]. apply Nat.eqb_refl.
      * apply In_nth_error in H as [i Hi]. destruct (nth_error l i) as [s|] eqn:Es.
        -- pose proof (P _ _ _ Es Hi) as LS. apply look_in in LS. eexists. split; [exact LS|]. apply Nat.eqb_refl.
        -- apply nth_error_None in Es. assert (i < List.length ps) by (apply nth_error_Some; congruence). lia.
  - intros B. exists (map fst (g_map g)). split; [apply O|]. split; [exact DD|]. unfold num_strings. rewrite map_length. apply N.mod_small.
    assert (Q : List.length (map fst (g_map g)) <= List.length (EmptyString :: l)).
    { apply NoDup_incl_length; [apply O|]. intros s H. apply DD in H as [->|H]; cbn; auto. }
    rewrite map_length in Q. cbn in Q. lia.
Qed.
Print Assumptions C85_known.

Example C85_known_ex : let '(g, ps) := interns (fst construct) ["a"; "bc"; "a"]%string in
  num_strings g = 3%N /\ has_string g "bc" = true /\ has_string g "b" = false /\ has_string g "" = true.
Proof. vm_compute. auto. Qed.

(** max_string_len_ is the length of the longest string, for strings shorter than
    2^32. *)
Theorem C85_longest : forall l, (forall s, In s l -> (size s < 2 ^ 32)%N) -> g_len (fst (interns (fst construct) l)) = longest l.
Proof.
  assert (K : forall l g, ok g -> (forall s, In s (map fst (g_map g)) -> (size s <= g_len g)%N) -> (forall s, In s l -> (size s < 2 ^ 32)%N) ->
     g_len (fst (interns g l)) = N.max (g_len g) (longest l)).
  { induction l as [|s l IH]; intros g O B S; cbn [interns longest fold_right fst]; [lia|].
    destruct (intern g s) as [g1 p] eqn:E1. destruct (intern_ok _ _ _ _ O E1) as (O1 & _ & _ & D1 & M).
    assert (Q : g_len g1 = N.max (g_len g) (size s)).
    { apply M; [apply S; left; reflexivity|]. destruct (in_dec String.string_dec s (map fst (g_map g))) as [H|H]; [left; apply B; auto|right; auto]. }
    specialize (IH g1 O1). destruct (interns g1 l) as [g2 qs]. cbn [fst] in *. rewrite IH.
    - rewrite Q. fold (longest l). lia.
    - intros t H. rewrite Q. apply D1 in H as [H| ->]; [specialize (B _ H)|]; lia.
    - intros t H. apply S. right. exact H. }
  intros l S. destruct construct_ok as [O0 _]. rewrite K; auto; [cbn [construct fst]; change (g_len (fst construct)) with 0%N; lia|].
  intros s [<-|[]]. cbn. lia.
Qed.
Print Assumptions C85_longest.

Example C85_longest_ex : g_len (fst (interns (fst construct) ["a"; "bcd"; "ef"]%string)) = 3%N.
Proof. reflexivity. Qed.

(** Claim: the pointer of an interned string points to that string. The pointers
    are not const: after a write through one, its string is interned under a
    pointer to another text, and two different pointers point to equal texts. *)
Theorem C85_write_refuted : exists g p q, let g1 := scribble g p "b" in
  intern (fst construct) "a" = (g, p) /\ intern g1 "a" = (g1, p) /\ g_mem g1 p = "b"%string /\
  snd (intern g1 "b") = q /\ q <> p /\ g_mem (fst (intern g1 "b")) q = "b"%string /\ g_mem (fst (intern g1 "b")) p = "b"%string.
Proof.
  eexists. exists 1, 2. cbn zeta. split; [reflexivity|]. split; [reflexivity|]. split; [reflexivity|]. split; [reflexivity|].
  split; [discriminate|]. split; reflexivity.
Qed.
Print Assumptions C85_write_refuted.
