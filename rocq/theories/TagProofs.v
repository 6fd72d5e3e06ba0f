From Coq Require Import List NArith Bool Arith String Ascii DecimalString DecimalN Lia.
From Verif Require Import TagModel.
Import ListNotations.

Lemma put_eq f i t : put f i t i = t.
Proof. unfold put. rewrite Nat.eqb_refl. reflexivity. Qed.
Lemma put_ne f i t j : j <> i -> put f i t j = f j.
Proof. intros. unfold put. destruct (Nat.eqb_spec j i); congruence. Qed.

(* Text. *)
Fixpoint dotless (s : string) : bool :=
  match s with EmptyString => true | String c s => negb (Ascii.eqb c ".") && dotless s end.
Lemma dec_inj a b : dec a = dec b -> a = b.
Proof.
  unfold dec. intros E. apply (f_equal NilEmpty.uint_of_string) in E. rewrite !NilEmpty.usu in E. injection E as E.
  apply (f_equal N.of_uint) in E. rewrite !DecimalN.Unsigned.of_to in E. exact E.
Qed.
Lemma dec_dotless a : dotless (dec a) = true.
Proof. unfold dec. induction (N.to_uint a); cbn; auto. Qed.
Lemma app_dot s d : dotless (s ++ "." ++ d) = false.
Proof. induction s as [|c s IH]; [reflexivity|]. cbn in *. rewrite IH. apply andb_false_r. Qed.
Lemma app_dot' s d : dotless (s ++ String "." d) = false.
Proof. apply (app_dot s d). Qed.
Lemma dot_split : forall s1 s2 d1 d2, dotless d1 = true -> dotless d2 = true ->
  (s1 ++ "." ++ d1 = s2 ++ "." ++ d2)%string -> s1 = s2 /\ d1 = d2.
Proof.
  induction s1 as [|c s1 IH]; intros [|c' s2] d1 d2 D1 D2 E.
  - injection E as E. auto.
  - injection E as _ E. exfalso. rewrite E in D1. pose proof (app_dot s2 d2) as K. cbn in K. congruence.
  - injection E as _ E. exfalso. rewrite <- E in D2. pose proof (app_dot s1 d1) as K. cbn in K. congruence.
  - injection E as -> E. destruct (IH s2 d1 d2 D1 D2 E) as [-> ->]. auto.
Qed.

(* Parents come before their children. *)
Definition founded (h : heap) : Prop := forall i p, i < h_n h -> t_par (h_tag h i) = Some p -> p < i.
Lemma text_ok h : founded h -> forall fuel i, i < h_n h -> i < fuel -> exists s, text fuel h i = Some s.
Proof.
  intros F. induction fuel as [|fuel IH]; intros i Hi HF; [lia|]. cbn. destruct (t_par (h_tag h i)) as [p|] eqn:E; [|eauto].
  apply F in E; auto. destruct (IH p) as [s ->]; [lia|lia|]. eauto.
Qed.
Lemma equal_text_iff h : founded h -> forall fuel i j s t, i < h_n h -> j < h_n h -> i < fuel -> j < fuel ->
  text fuel h i = Some s -> text fuel h j = Some t -> equal fuel h i j = Some (String.eqb s t).
Proof.
  intros F. induction fuel as [|fuel IH]; intros i j s t Hi Hj Fi Fj; [lia|]. cbn [text equal].
  destruct (t_par (h_tag h i)) as [p|] eqn:Ep, (t_par (h_tag h j)) as [q|] eqn:Eq.
  - apply F in Ep, Eq; auto.
    destruct (text_ok h F fuel p) as [sp Sp]; [lia|lia|]. destruct (text_ok h F fuel q) as [sq Sq]; [lia|lia|]. rewrite Sp, Sq.
    intros Es Et. injection Es as <-. injection Et as <-.
    destruct (N.eqb_spec (t_seq (h_tag h i)) (t_seq (h_tag h j))) as [E|NE].
    + rewrite (IH p q sp sq) by (auto; lia). f_equal. rewrite E. apply eq_true_iff_eq. rewrite !String.eqb_eq. split; [congruence|].
      intros X. apply dot_split in X as [X _]; auto using dec_dotless.
    + f_equal. symmetry. apply String.eqb_neq. intros X. apply dot_split in X as [_ X]; auto using dec_dotless. apply dec_inj in X. contradiction.
  - apply F in Ep; auto. destruct (text_ok h F fuel p) as [sp Sp]; [lia|lia|]. rewrite Sp. intros Es Et. injection Es as <-. injection Et as <-.
    f_equal. symmetry. apply String.eqb_neq. intros X. apply (f_equal dotless) in X. cbn [append] in X. rewrite app_dot', dec_dotless in X. discriminate.
  - apply F in Eq; auto. destruct (text_ok h F fuel q) as [sq Sq]; [lia|lia|]. rewrite Sq. intros Es Et. injection Es as <-. injection Et as <-.
    f_equal. symmetry. apply String.eqb_neq. intros X. apply (f_equal dotless) in X. cbn [append] in X. rewrite app_dot', dec_dotless in X. discriminate.
  - intros Es Et. injection Es as <-. injection Et as <-. f_equal. apply eq_true_iff_eq. rewrite N.eqb_eq, String.eqb_eq.
    split; [congruence|apply dec_inj].
Qed.

Lemma founded_add h t g : founded h -> (forall p, t_par t = Some p -> p < h_n h) -> founded (add h t g).
Proof.
  intros F H i p Hi E. cbn in *. destruct (Nat.eq_dec i (h_n h)) as [->|NE].
  - rewrite put_eq in E. auto.
  - rewrite put_ne in E by auto. apply F; auto. lia.
Qed.
Lemma founded_put h i t : founded h -> t_par t = t_par (h_tag h i) -> founded (mkH (h_n h) (put (h_tag h) i t) (h_glob h)).
Proof.
  intros F H j p Hj E. cbn in *. apply F; auto. destruct (Nat.eq_dec j i) as [->|NE].
  - rewrite put_eq in E. congruence.
  - rewrite put_ne in E by auto. exact E.
Qed.
Definition plain (o : op) : bool := match o with Assign _ _ => false | _ => true end.
Lemma step_founded h o h' : plain o = true -> step h o = Some h' -> founded h -> founded h'.
Proof.
  intros P E F. destruct o as [|p|i|i j|]; cbn [plain step] in P, E; try discriminate.
  - inversion E; subst. apply founded_add; auto. discriminate.
  - destruct (Nat.ltb_spec p (h_n h)) as [L|]; [|discriminate]. inversion E; subst. unfold child. apply founded_add; cbn.
    + apply founded_put; auto.
    + intros q Q. injection Q as <-. exact L.
  - destruct (Nat.ltb_spec i (h_n h)) as [L|]; [|discriminate]. inversion E; subst. apply founded_add; auto.
    intros p Q. apply F in Q; auto. lia.
  - inversion E; subst. exact F.
Qed.
Lemma run_founded l : forall h h', forallb plain l = true -> run_from h l = Some h' -> founded h -> founded h'.
Proof.
  induction l as [|o l IH]; intros h h' P E F; cbn in P, E; [inversion E; subst; auto|].
  apply andb_true_iff in P as [P1 P2]. destruct (step h o) as [h1|] eqn:ES; [|discriminate]. eapply IH; eauto. eapply step_founded; eauto.
Qed.
Lemma empty_founded : founded empty.
Proof. intros i p H. cbn in H. lia. Qed.

(* Numbers. *)
Definition fresh_op (o : op) : bool := match o with New | Child _ => true | _ => false end.
Record ordered (h : heap) (k : N) : Prop := mkO {
  o_f : founded h;
  o_glob : (h_glob h <= 1 + k)%N;
  o_child : forall i, i < h_n h -> (1 <= t_child (h_tag h i) <= 1 + k)%N;
  o_root : forall i, i < h_n h -> t_par (h_tag h i) = None -> (t_seq (h_tag h i) < h_glob h)%N;
  o_kid : forall i p, i < h_n h -> t_par (h_tag h i) = Some p -> (t_seq (h_tag h i) < t_child (h_tag h p))%N;
  o_inj : forall i j, i < h_n h -> j < h_n h -> t_par (h_tag h i) = t_par (h_tag h j) -> t_seq (h_tag h i) = t_seq (h_tag h j) -> i = j }.

Lemma inc_small x : (x + 1 < 2 ^ 32)%N -> inc x = (x + 1)%N.
Proof. intros. unfold inc. apply N.mod_small. exact H. Qed.

Lemma new_ordered h k : ordered h k -> (k + 2 < 2 ^ 32)%N -> ordered (new h) (k + 1).
Proof.
  intros [F G C RT K J] B. unfold new. rewrite inc_small by lia. constructor; cbn [h_n h_tag h_glob add].
  - apply founded_add; auto. discriminate.
  - lia.
  - intros i Hi. destruct (Nat.eq_dec i (h_n h)) as [->|NE]; [rewrite put_eq; cbn [t_par t_seq t_child]; lia|]. rewrite put_ne by auto. specialize (C i ltac:(lia)). lia.
  - intros i Hi E. destruct (Nat.eq_dec i (h_n h)) as [->|NE]; [rewrite put_eq; cbn [t_par t_seq t_child]; lia|]. rewrite put_ne in * by auto. specialize (RT i ltac:(lia) E). lia.
  - intros i p Hi E. destruct (Nat.eq_dec i (h_n h)) as [->|NE]; [rewrite put_eq in E; discriminate|]. rewrite (put_ne _ _ _ i) in * by auto.
    assert (p < i) by (apply F; auto; lia). rewrite put_ne by lia. apply K; auto. lia.
  - intros i j Hi Hj. destruct (Nat.eq_dec i (h_n h)) as [->|NE], (Nat.eq_dec j (h_n h)) as [->|NE']; auto.
    + rewrite put_eq, put_ne by auto. cbn [t_par t_seq t_child]. intros E S. symmetry in E. apply RT in E; [|lia]. lia.
    + rewrite put_eq, put_ne by auto. cbn [t_par t_seq t_child]. intros E S. apply RT in E; [|lia]. lia.
    + rewrite !put_ne by auto. apply J; lia.
Qed.
Lemma child_ordered h k p : ordered h k -> p < h_n h -> (k + 2 < 2 ^ 32)%N -> ordered (child h p) (k + 1).
Proof.
  intros [F G C RT K J] Hp B. unfold child. pose proof (C p Hp) as Cp. rewrite inc_small by lia.
  set (f := put (h_tag h) p _).
  assert (FP : forall i, t_par (f i) = t_par (h_tag h i)) by (intros i; unfold f, put; destruct (Nat.eqb_spec i p); subst; reflexivity).
  assert (FS : forall i, t_seq (f i) = t_seq (h_tag h i)) by (intros i; unfold f, put; destruct (Nat.eqb_spec i p); subst; reflexivity).
  assert (FC : forall i, (t_child (h_tag h i) <= t_child (f i))%N) by (intros i; unfold f, put; destruct (Nat.eqb_spec i p); subst; cbn [t_par t_seq t_child]; lia).
  assert (FD : t_child (f p) = (t_child (h_tag h p) + 1)%N) by (unfold f; rewrite put_eq; reflexivity).
  constructor; cbn [h_n h_tag h_glob add].
  - apply founded_add; cbn.
    + apply founded_put; auto.
    + intros q Q. injection Q as <-. exact Hp.
  - lia.
  - intros i Hi. destruct (Nat.eq_dec i (h_n h)) as [->|NE]; [rewrite put_eq; cbn [t_par t_seq t_child]; lia|]. rewrite put_ne by auto.
    specialize (C i ltac:(lia)). unfold f, put. destruct (Nat.eqb_spec i p); cbn [t_par t_seq t_child]; lia.
  - intros i Hi E. destruct (Nat.eq_dec i (h_n h)) as [->|NE]; [rewrite put_eq in E; discriminate|]. rewrite put_ne in * by auto.
    rewrite FP in E. rewrite FS. apply RT; auto. lia.
  - intros i q Hi E. destruct (Nat.eq_dec i (h_n h)) as [->|NE].
    + rewrite put_eq in *. cbn in *. injection E as <-. rewrite put_ne by lia. rewrite FD. lia.
    + rewrite (put_ne _ _ _ i) in * by auto. rewrite FP in E. assert (q < i) by (apply F; auto; lia). rewrite put_ne by lia. rewrite FS.
      specialize (K i q ltac:(lia) E). specialize (FC q). lia.
  - intros i j Hi Hj. destruct (Nat.eq_dec i (h_n h)) as [->|NE], (Nat.eq_dec j (h_n h)) as [->|NE']; auto.
    + rewrite put_eq, put_ne by auto. cbn [t_par t_seq t_child]. rewrite FP, FS. intros E S. symmetry in E. apply K in E; lia.
    + rewrite put_eq, put_ne by auto. cbn [t_par t_seq t_child]. rewrite FP, FS. intros E S. apply K in E; lia.
    + rewrite !put_ne, !FP, !FS by auto. apply J; lia.
Qed.
Lemma run_ordered l : forall h h' k, forallb fresh_op l = true -> run_from h l = Some h' -> ordered h k ->
  (k + N.of_nat (List.length l) + 1 < 2 ^ 32)%N -> ordered h' (k + N.of_nat (List.length l)).
Proof.
  induction l as [|o l IH]; intros h h' k P E O B; cbn [forallb run_from List.length] in *.
  - inversion E; subst. rewrite N.add_0_r. exact O.
  - apply andb_true_iff in P as [P1 P2]. destruct (step h o) as [h1|] eqn:ES; [|discriminate].
    assert (O1 : ordered h1 (k + 1)).
    { destruct o; cbn [fresh_op step] in P1, ES; try discriminate.
      - inversion ES; subst. apply new_ordered; auto. lia.
      - destruct (Nat.ltb_spec p (h_n h)); [|discriminate]. inversion ES; subst. apply child_ordered; auto. lia. }
    replace (k + N.of_nat (S (List.length l)))%N with (k + 1 + N.of_nat (List.length l))%N by lia. eapply IH; eauto. lia.
Qed.
Lemma empty_ordered : ordered empty 0.
Proof. constructor; cbn; try lia. apply empty_founded. Qed.

Lemma equal_ordered h k : ordered h k -> forall fuel i j, i < h_n h -> j < h_n h -> i < fuel -> j < fuel -> equal fuel h i j = Some (Nat.eqb i j).
Proof.
  intros O. induction fuel as [|fuel IH]; intros i j Hi Hj Fi Fj; [lia|]. cbn.
  assert (D : forall b : bool, (b = true <-> i = j) -> Some b = Some (Nat.eqb i j)).
  { intros b H. f_equal. apply eq_true_iff_eq. rewrite Nat.eqb_eq. exact H. }
  destruct (t_par (h_tag h i)) as [p|] eqn:Ep, (t_par (h_tag h j)) as [q|] eqn:Eq.
  - pose proof (o_f _ _ O _ _ Hi Ep). pose proof (o_f _ _ O _ _ Hj Eq).
    destruct (N.eqb_spec (t_seq (h_tag h i)) (t_seq (h_tag h j))) as [S|S].
    + rewrite IH by lia. apply D. rewrite Nat.eqb_eq. split; [|intros ->; congruence].
      intros ->. apply (o_inj _ _ O); auto. congruence.
    + apply D. split; [discriminate|]. intros ->. congruence.
  - apply D. split; [discriminate|]. intros ->. congruence.
  - apply D. split; [discriminate|]. intros ->. congruence.
  - apply D. rewrite N.eqb_eq. split; [|congruence]. intros S. apply (o_inj _ _ O); auto. congruence.
Qed.

(* Many new tags. *)
Lemma news n : forall h, exists h', run_from h (repeat New n) = Some h' /\ h_n h' = h_n h + n /\
  (forall i, i < h_n h -> h_tag h' i = h_tag h i) /\
  ((h_glob h < 2 ^ 32)%N -> h_glob h' = ((h_glob h + N.of_nat n) mod 2 ^ 32)%N /\
    forall i, h_n h <= i < h_n h + n -> t_par (h_tag h' i) = None /\ t_seq (h_tag h' i) = ((h_glob h + N.of_nat (i - h_n h)) mod 2 ^ 32)%N).
Proof.
  induction n as [|n IH]; intros h.
  - exists h. cbn. split; [reflexivity|]. split; [lia|]. split; [auto|]. intros B. rewrite N.add_0_r, N.mod_small by auto. split; [auto|]. intros; lia.
  - cbn [repeat run_from step]. destruct (IH (new h)) as (h' & E & N1 & T & G). exists h'. split; [exact E|]. cbn in N1. split; [lia|].
    split. { intros i Hi. rewrite T by (cbn; lia). cbn. apply put_ne. lia. }
    intros B. assert (B' : (h_glob (new h) < 2 ^ 32)%N) by (cbn; apply N.mod_upper_bound; discriminate).
    destruct (G B') as [G1 G2]. cbn [new h_glob add] in G1, G2. unfold inc in G1, G2. split.
    + rewrite G1, N.add_mod_idemp_l by discriminate. f_equal. lia.
    + intros i Hi. destruct (Nat.eq_dec i (h_n h)) as [->|NE].
      * rewrite T by (cbn; lia). cbn. rewrite put_eq. cbn. rewrite Nat.sub_diag, N.add_0_r, N.mod_small by auto. auto.
      * destruct (G2 i) as [P S]; [cbn; lia|]. split; auto. rewrite S, N.add_mod_idemp_l by discriminate. f_equal. cbn. lia.
Qed.

(* Texts stay. *)
Definition keeps (h h' : heap) : Prop := h_n h <= h_n h' /\
  forall i, i < h_n h -> t_par (h_tag h' i) = t_par (h_tag h i) /\ t_seq (h_tag h' i) = t_seq (h_tag h i).
Lemma keeps_trans a b c : keeps a b -> keeps b c -> keeps a c.
Proof.
  intros [A1 A2] [B1 B2]. split; [lia|]. intros i Hi. destruct (A2 i Hi) as [<- <-]. apply B2. lia.
Qed.
Lemma step_keeps h o h' : plain o = true -> step h o = Some h' -> keeps h h'.
Proof.
  intros P E. destruct o as [|p|i|i j|]; cbn [plain step] in P, E; try discriminate.
  - inversion E; subst. split; cbn [new add h_n]; [lia|]. intros i Hi. cbn. rewrite put_ne by lia. auto.
  - destruct (Nat.ltb_spec p (h_n h)); [|discriminate]. inversion E; subst. split; cbn [child add h_n]; [lia|]. intros i Hi. cbn. rewrite put_ne by lia.
    unfold put. destruct (Nat.eqb_spec i p); subst; auto.
  - destruct (Nat.ltb_spec i (h_n h)); [|discriminate]. inversion E; subst. split; cbn [copy add h_n]; [lia|]. intros j Hj. cbn. rewrite put_ne by lia. auto.
  - inversion E; subst. split; cbn; auto.
Qed.
Lemma run_keeps l : forall h h', forallb plain l = true -> run_from h l = Some h' -> keeps h h'.
Proof.
  induction l as [|o l IH]; intros h h' P E; cbn [forallb run_from] in P, E.
  - inversion E; subst. split; auto.
  - apply andb_true_iff in P as [P1 P2]. destruct (step h o) as [h1|] eqn:ES; [|discriminate].
    eapply keeps_trans; [eapply step_keeps; eauto|eapply IH; eauto].
Qed.
Lemma text_keeps h h' : founded h -> keeps h h' -> forall fuel i, i < h_n h -> text fuel h' i = text fuel h i.
Proof.
  intros F [_ K]. induction fuel as [|fuel IH]; intros i Hi; [reflexivity|]. cbn. destruct (K i Hi) as [-> ->].
  destruct (t_par (h_tag h i)) as [p|] eqn:E; [|reflexivity]. rewrite IH; [reflexivity|]. apply F in E; auto. lia.
Qed.
Lemma text_fuel h : founded h -> forall fuel fuel' i, i < h_n h -> i < fuel -> i < fuel' -> text fuel h i = text fuel' h i.
Proof.
  intros F. induction fuel as [|fuel IH]; intros [|fuel'] i Hi A B; try lia. cbn. destruct (t_par (h_tag h i)) as [p|] eqn:E; [|reflexivity].
  apply F in E; auto. rewrite (IH fuel' p); [reflexivity|lia..].
Qed.

(* Numbers of children. *)
Definition kids (l : list op) (p : nat) : nat :=
  List.length (filter (fun o => match o with Child q => Nat.eqb q p | _ => false end) l).
Lemma kids_cons o l p : kids (o :: l) p = kids [o] p + kids l p.
Proof. unfold kids. change (o :: l) with ([o] ++ l). rewrite filter_app, app_length. reflexivity. Qed.
Lemma step_kids h o h' p : fresh_op o = true -> step h o = Some h' ->
  (p < h_n h -> (t_child (h_tag h p) + 1 < 2 ^ 32)%N -> t_child (h_tag h' p) = (t_child (h_tag h p) + N.of_nat (kids [o] p))%N) /\
  (h_n h <= p -> kids [o] p = 0 /\ (p < h_n h' -> t_child (h_tag h' p) = 1%N)) /\ h_n h' = S (h_n h).
Proof.
  intros P E. destruct o as [|q|i|i j|]; cbn [fresh_op step] in P, E; try discriminate.
  - inversion E; subst. split; [|split; [|reflexivity]].
    + intros Hp B. cbn. rewrite put_ne by lia. lia.
    + intros Hp. split; [reflexivity|]. cbn. intros Hq. assert (p = h_n h) by lia. subst. rewrite put_eq. reflexivity.
  - destruct (Nat.ltb_spec q (h_n h)); [|discriminate]. inversion E; subst. unfold kids. cbn [filter]. split; [|split; [|reflexivity]].
    + intros Hp B. cbn. rewrite put_ne by lia. unfold put. rewrite (Nat.eqb_sym p q). destruct (Nat.eqb_spec q p); subst; cbn [t_child List.length].
      * rewrite inc_small by lia. lia.
      * lia.
    + intros Hp. destruct (Nat.eqb_spec q p); [lia|]. split; [reflexivity|]. cbn. intros Hq. assert (p = h_n h) by lia. subst. rewrite put_eq. reflexivity.
Qed.
Lemma run_kids l : forall h h' p k, forallb fresh_op l = true -> run_from h l = Some h' -> ordered h k ->
  (k + N.of_nat (List.length l) + 1 < 2 ^ 32)%N -> p < h_n h' ->
  t_child (h_tag h' p) = ((if Nat.ltb p (h_n h) then t_child (h_tag h p) else 1) + N.of_nat (kids l p))%N.
Proof.
  induction l as [|o l IH]; intros h h' p k P E O B Hp; cbn [forallb run_from List.length] in *.
  - inversion E; subst. apply Nat.ltb_lt in Hp. rewrite Hp. cbn. lia.
  - apply andb_true_iff in P as [P1 P2]. destruct (step h o) as [h1|] eqn:ES; [|discriminate].
    assert (O1 : ordered h1 (k + 1)).
    { apply (run_ordered [o] h h1 k); cbn [forallb run_from List.length]; rewrite ?P1, ?ES; auto. lia. }
    rewrite (IH h1 h' p (k + 1)%N) by (auto; lia). rewrite kids_cons.
    destruct (step_kids h o h1 p P1 ES) as (K1 & K2 & K3).
    destruct (Nat.ltb_spec p (h_n h)) as [L|L].
    + pose proof (o_child _ _ O p L). destruct (Nat.ltb_spec p (h_n h1)); [|lia]. rewrite K1 by lia. lia.
    + destruct (K2 L) as [Z Q]. destruct (Nat.ltb_spec p (h_n h1)) as [L1|L1]; [rewrite Q by auto|]; lia.
Qed.
Lemma run_app l1 l2 : forall h, run_from h (l1 ++ l2) = match run_from h l1 with Some h => run_from h l2 | None => None end.
Proof. induction l1 as [|o l1 IH]; intros h; cbn; auto. destruct (step h o); auto. Qed.
