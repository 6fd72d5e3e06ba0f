(** C84: tags are unique, and their texts tell them apart. *)
From Coq Require Import List NArith Bool Arith String Ascii Lia.
From Verif Require Import TagModel TagProofs.
Import ListNotations.

(** Two roots; children of the first and a grandchild. *)
Definition ex_l : list op := [New; New; Child 0; Child 0; Child 3; New; Child 3].
(** The texts of the tags after some steps. *)
Definition texts (l : list op) : option (list (option string)) :=
  match run l with Some h => Some (map (text 20 h) (seq 0 (h_n h))) | None => None end.

(** Whatever tags are made, copied and reset: each has a text, and comparing two
    tags, or a tag with a text, is comparing texts. *)
Theorem C84_text : forall l h fuel i j, run l = Some h -> forallb plain l = true -> i < h_n h -> j < h_n h -> i < fuel -> j < fuel ->
  exists s t, text fuel h i = Some s /\ text fuel h j = Some t /\
    equal fuel h i j = Some (String.eqb s t) /\ forall u, equal_text fuel h i u = Some (String.eqb s u).
Proof.
  intros l h fuel i j E P Hi Hj Fi Fj. pose proof (run_founded l _ _ P E empty_founded) as F.
  destruct (text_ok h F fuel i Hi Fi) as [s S]. destruct (text_ok h F fuel j Hj Fj) as [t T]. exists s, t.
  split; [exact S|]. split; [exact T|]. split; [eapply equal_text_iff; eauto|]. intros u. unfold equal_text. rewrite S. reflexivity.
Qed.
Print Assumptions C84_text.

Example C84_text_ex : forallb plain (ex_l ++ [Copy 4; ResetSeq; New]) = true /\
  texts (ex_l ++ [Copy 4; ResetSeq; New]) =
  Some (map Some ["1"; "2"; "1.1"; "1.2"; "1.2.1"; "3"; "1.2.2"; "1.2.1"; "1"]%string) /\
  match run (ex_l ++ [Copy 4; ResetSeq; New]) with
  | Some h => equal 20 h 4 7 = Some true /\ equal 20 h 4 6 = Some false /\ equal_text 20 h 6 "1.2.2" = Some true | None => False end.
Proof. vm_compute. auto. Qed.

(** As long as fewer than 2^32 - 1 tags are made, none copied and the sequence not
    reset, two tags are equal only if they are one, and no two have one text. *)
Theorem C84_unique : forall l h fuel i j, run l = Some h -> forallb fresh_op l = true -> (N.of_nat (List.length l) + 1 < 2 ^ 32)%N ->
  i < h_n h -> j < h_n h -> i < fuel -> j < fuel ->
  equal fuel h i j = Some (Nat.eqb i j) /\ (text fuel h i = text fuel h j -> i = j).
Proof.
  intros l h fuel i j E P B Hi Hj Fi Fj. pose proof (run_ordered l _ _ _ P E empty_ordered ltac:(lia)) as O.
  pose proof (equal_ordered h _ O fuel i j Hi Hj Fi Fj) as Q. split; [exact Q|]. intros T. pose proof (o_f _ _ O) as F.
  destruct (text_ok h F fuel i Hi Fi) as [s S]. pose proof (equal_text_iff h F fuel i j s s Hi Hj Fi Fj S ltac:(congruence)) as R.
  rewrite String.eqb_refl in R. rewrite R in Q. injection Q as Q. apply Nat.eqb_eq. auto.
Qed.
Print Assumptions C84_unique.

Example C84_unique_ex : forallb fresh_op ex_l = true /\
  match run ex_l with Some h => h_n h = 7 /\ equal 20 h 2 4 = Some false /\ equal 20 h 4 4 = Some true | None => False end.
Proof. vm_compute. auto. Qed.

(** The children of a tag are numbered from 1 in the order they are made,
    whatever else is made in between; the text of a child is that of its parent,
    a dot and the number. *)
Theorem C84_child : forall l h p h' fuel, run l = Some h -> forallb fresh_op l = true -> (N.of_nat (List.length l) + 2 < 2 ^ 32)%N ->
  step h (Child p) = Some h' -> h_n h < fuel ->
  exists s, text fuel h p = Some s /\ text fuel h' (h_n h) = Some (s ++ "." ++ dec (N.of_nat (S (kids l p))))%string.
Proof.
  intros l h p h' fuel E P B ES HF. pose proof (run_ordered l _ _ _ P E empty_ordered ltac:(lia)) as O. pose proof (o_f _ _ O) as F.
  cbn [step] in ES. destruct (Nat.ltb_spec p (h_n h)) as [L|]; [|discriminate].
  destruct (text_ok h F fuel p L ltac:(lia)) as [s TS]. exists s. split; [exact TS|].
  pose proof (run_kids l _ _ p 0%N P E empty_ordered ltac:(lia) L) as K. cbn [h_n empty] in K.
  replace (Nat.ltb p 0) with false in K by (symmetry; apply Nat.ltb_ge; lia).
  assert (ST : step h (Child p) = Some h') by (cbn [step]; apply Nat.ltb_lt in L; rewrite L; exact ES).
  pose proof (step_keeps h (Child p) h' eq_refl ST) as KP. inversion ES; subst h'. destruct fuel as [|fuel]; [lia|].
  assert (TP : text fuel (child h p) p = Some s).
  { rewrite (text_keeps h (child h p) F KP) by auto. rewrite (text_fuel h F fuel (S fuel)) by lia. exact TS. }
  assert (X : h_tag (child h p) (h_n h) = mkT (Some p) (t_child (h_tag h p)) 1) by (cbn [child add h_tag h_n]; apply put_eq).
  cbn [text]. rewrite X. cbn [t_par t_seq]. rewrite TP, K. replace (1 + N.of_nat (kids l p))%N with (N.of_nat (S (kids l p))) by lia. reflexivity.
Qed.
Print Assumptions C84_child.

Example C84_child_ex : forallb fresh_op ex_l = true /\ kids ex_l 3 = 2 /\
  match run ex_l with Some h => match step h (Child 3) with Some h' => text 20 h' (h_n h) = Some "1.2.3"%string | None => False end | None => False end.
Proof. vm_compute. auto. Qed.

(** No later step changes the text of a tag. *)
Theorem C84_stable : forall l l' h h' fuel i, run l = Some h -> run_from h l' = Some h' -> forallb plain (l ++ l') = true ->
  i < h_n h -> text fuel h' i = text fuel h i.
Proof.
  intros l l' h h' fuel i E E' P Hi. rewrite forallb_app in P. apply andb_true_iff in P as [P1 P2].
  apply text_keeps; auto; [exact (run_founded l _ _ P1 E empty_founded)|exact (run_keeps l' _ _ P2 E')].
Qed.
Print Assumptions C84_stable.

Example C84_stable_ex : match run ex_l with
  | Some h => match run_from h [Child 4; ResetSeq; Copy 3; New] with
      | Some h' => text 20 h' 4 = Some "1.2.1"%string /\ h_n h' = 10 | None => False end
  | None => False end.
Proof. vm_compute. auto. Qed.

(** Only tags that exist are assigned; a tag that is assigned an earlier one has
    its text, and earlier tags keep theirs. *)
Theorem C84_assign : forall l h i j, run l = Some h -> forallb plain l = true ->
  (h_n h <= i \/ h_n h <= j -> step h (Assign i j) = None) /\
  (j < i < h_n h -> exists h', step h (Assign i j) = Some h' /\
     forall fuel, (forall k, k < i -> text fuel h' k = text fuel h k) /\ text fuel h' i = text fuel h j).
Proof.
  intros l h i j E P. pose proof (run_founded l _ _ P E empty_founded) as F. cbn [step]. split.
  - intros H. destruct (Nat.ltb_spec i (h_n h)), (Nat.ltb_spec j (h_n h)); try reflexivity. lia.
  - intros [H1 H2]. destruct (Nat.ltb_spec i (h_n h)), (Nat.ltb_spec j (h_n h)); try lia. cbn [andb]. eexists. split; [reflexivity|].
    assert (K : forall fuel k, k < i -> text fuel (assign h i j) k = text fuel h k).
    { induction fuel as [|fuel IH]; intros k Hk; [reflexivity|]. cbn [text assign h_tag]. rewrite put_ne by lia.
      destruct (t_par (h_tag h k)) as [p|] eqn:Ep; [|reflexivity]. apply F in Ep; [|lia]. fold (assign h i j).
      change (mkH _ _ _) with (assign h i j). rewrite IH by lia. reflexivity. }
    intros fuel. split; [intros; apply K; auto|]. destruct fuel as [|fuel]; [reflexivity|]. cbn [text]. cbn [assign h_tag]. rewrite put_eq.
    destruct (t_par (h_tag h j)) as [p|] eqn:Ep; [|reflexivity]. apply F in Ep; [|lia]. rewrite (K fuel p) by lia. reflexivity.
Qed.
Print Assumptions C84_assign.

Example C84_assign_ex : match run ex_l with
  | Some h => match step h (Assign 5 4) with
      | Some h' => text 20 h' 5 = Some "1.2.1"%string /\ text 20 h' 3 = Some "1.2"%string | None => False end /\
      step h (Assign 5 7) = None /\ step h (Assign 7 5) = None
  | None => False end.
Proof. vm_compute. auto. Qed.

Local Ltac after l := match eval vm_compute in (run l) with Some ?h => exists h end.

(** A copy of a tag has its own count of children: the copy and the original hand
    out equal children. *)
Theorem C84_copy_refuted : exists l h, run l = Some h /\ forallb plain l = true /\
  t_par (h_tag h 2) = Some 0 /\ t_par (h_tag h 3) = Some 1 /\ equal 20 h 2 3 = Some true.
Proof. exists [New; Copy 0; Child 0; Child 1]. after [New; Copy 0; Child 0; Child 1]. vm_compute. auto. Qed.
Print Assumptions C84_copy_refuted.

(** After resetGlobalSeqNum new tags are equal to the first ones. *)
Theorem C84_reset_refuted : exists h, run [New; ResetSeq; New] = Some h /\ equal 20 h 0 1 = Some true.
Proof. after [New; ResetSeq; New]. vm_compute. auto. Qed.
Print Assumptions C84_reset_refuted.

(** The numbers wrap: the 2^32nd tag has the number 0, and the one after it is
    equal to the first. *)
Theorem C84_wrap_refuted : exists h, run (repeat New (S (N.to_nat (2 ^ 32)))) = Some h /\
  t_seq (h_tag h (N.to_nat (2 ^ 32 - 1))) = 0%N /\
  forall fuel, equal (S fuel) h 0 (N.to_nat (2 ^ 32)) = Some true.
Proof.
  set (M := (2 ^ 32)%N). assert (HM : M = (2 ^ 32)%N) by reflexivity. clearbody M.
  destruct (news (S (N.to_nat M)) empty) as (h & E & _ & _ & G). exists h. split; [exact E|].
  destruct (G ltac:(reflexivity)) as [_ K]. cbn [empty h_n h_glob] in K.
  assert (B : (1 < M)%N) by (rewrite HM; reflexivity).
  rewrite <- HM in *.
  destruct (K 0 ltac:(lia)) as [P0 S0]. destruct (K (N.to_nat (M - 1)) ltac:(lia)) as [_ S1]. destruct (K (N.to_nat M) ltac:(lia)) as [P2 S2].
  assert (X0 : t_seq (h_tag h 0) = 1%N) by (rewrite S0; cbn [Nat.sub]; apply N.mod_small; exact B).
  assert (X1 : t_seq (h_tag h (N.to_nat (M - 1))) = 0%N).
  { rewrite S1, Nat.sub_0_r, Nnat.N2Nat.id. replace (1 + (M - 1))%N with M by lia. apply N.mod_same. lia. }
  assert (X2 : t_seq (h_tag h (N.to_nat M)) = 1%N).
  { rewrite S2, Nat.sub_0_r, Nnat.N2Nat.id. replace (1 + M)%N with (1 + 1 * M)%N by lia. rewrite N.mod_add by lia. apply N.mod_small. exact B. }
  split; [exact X1|]. intros fuel. cbn [equal]. rewrite P0, P2, X0, X2. reflexivity.
Qed.
Print Assumptions C84_wrap_refuted.

(** A tag that is assigned one of its children becomes its own parent: its text
    and its comparison with itself do not end. *)
Theorem C84_assign_refuted : exists h, run [New; Child 0; Assign 0 1] = Some h /\
  forall fuel, text fuel h 0 = None /\ equal fuel h 0 0 = None.
Proof.
  after [New; Child 0; Assign 0 1]. split; [reflexivity|]. induction fuel as [|fuel [I1 I2]]; [split; reflexivity|].
  split; [cbn [text]|cbn [equal]]; cbn [h_tag t_par t_seq N.eqb Pos.eqb]; [rewrite I1|rewrite I2]; reflexivity.
Qed.
Print Assumptions C84_assign_refuted.
