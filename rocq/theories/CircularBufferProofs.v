(** Lemmas about the CircularBuffer model. *)
From Coq Require Import List NArith Arith Bool Lia.
From Verif Require Import CircularBufferModel.
Open Scope nat_scope.
Import ListNotations.

Section P.
Context {A : Type}.
Implicit Types (b : cb A) (l : list A).

Fixpoint wins (s : N) (k : nat) : list N := match k with O => [] | S k => s :: wins (s + 1)%N k end.

Record CI b l : Prop := {
  C_data : map c_data (b_cells b) = l;
  C_win : map c_win (b_cells b) = wins (b_start b) (length l);
  C_nd : NoDup (map c_node (b_cells b));
  C_fresh : forall c, In c (b_cells b) -> c_node c < b_fresh b;
  C_valid : b_valid b = length l;
  C_end : b_end b = (b_start b + N.of_nat (length l))%N
}.

Lemma CI_len : forall b l, CI b l -> length (b_cells b) = length l.
Proof. intros b l [D _ _ _ _ _]. rewrite <- D, map_length. reflexivity. Qed.

Lemma wins_nth : forall k s i, i < k -> nth_error (wins s k) i = Some (s + N.of_nat i)%N.
Proof. induction k; intros s i H; [lia|]. destruct i; simpl; [f_equal; lia|]. rewrite IHk by lia. f_equal. lia. Qed.
Lemma wins_snoc : forall k s, wins s (S k) = wins s k ++ [(s + N.of_nat k)%N].
Proof.
  induction k; intros s; [simpl; f_equal; lia|]. change (wins s (S (S k))) with (s :: wins (s + 1)%N (S k)).
  rewrite IHk. simpl. f_equal. f_equal. f_equal. lia.
Qed.
Lemma wins_len : forall k s, length (wins s k) = k.
Proof. induction k; simpl; auto. Qed.

Lemma renumber_win : forall (cs : list (cell A)) s, map c_win (renumber cs s) = wins s (length cs).
Proof. induction cs; simpl; intros; f_equal; auto. Qed.
Lemma renumber_data : forall (cs : list (cell A)) s, map c_data (renumber cs s) = map c_data cs.
Proof. induction cs; simpl; intros; f_equal; auto. Qed.
Lemma renumber_node : forall (cs : list (cell A)) s, map c_node (renumber cs s) = map c_node cs.
Proof. induction cs; simpl; intros; f_equal; auto. Qed.

Lemma init_ok : forall n, CI (cb_init n) [].
Proof. intros. constructor; simpl; auto; try constructor. intros c []. Qed.

(* Push: keeps everything, or drops the first element when full. *)
Lemma push_ok : forall b l a, CI b l -> exists b', cb_push b a = Some b' /\ b_max b' = b_max b /\ b_end b' = (b_end b + 1)%N /\
  CI b' (if length l =? b_max b then tl (l ++ [a]) else l ++ [a]) /\
  b_start b' = (if Nat.eqb (length l) (b_max b) then b_start b + 1 else b_start b)%N /\
  (forall c, In c (b_cells b) -> (c_win c >= b_start b')%N -> In c (b_cells b')).
Proof.
  intros b l a I. pose proof (CI_len _ _ I) as HL. destruct I as [D W ND F V E]. unfold cb_push. rewrite V.
  assert (ND' : NoDup (map c_node (b_cells b ++ [mkCell (b_fresh b) a (b_end b)]))).
  { rewrite map_app. simpl map.
    rewrite <- (rev_involutive (map c_node (b_cells b) ++ [b_fresh b])). apply NoDup_rev. rewrite rev_app_distr. simpl.
    constructor; [|apply NoDup_rev; auto]. rewrite <- in_rev. intros K. apply in_map_iff in K. destruct K as (c & Ec & Hc). apply F in Hc. lia. }
  assert (F' : forall c, In c (b_cells b ++ [mkCell (b_fresh b) a (b_end b)]) -> c_node c < S (b_fresh b)).
  { intros c Hc. apply in_app_or in Hc. destruct Hc as [Hc|[<-|[]]]; [apply F in Hc; lia|simpl; lia]. }
  assert (W' : map c_win (b_cells b ++ [mkCell (b_fresh b) a (b_end b)]) = wins (b_start b) (S (length l))).
  { rewrite map_app, W, wins_snoc. simpl. rewrite E. reflexivity. }
  destruct (Nat.eqb_spec (length l) (b_max b)) as [EQ|NE]; cbn [cb_size b_valid b_cells].
  - destruct (b_cells b ++ [mkCell (b_fresh b) a (b_end b)]) as [|c0 cs] eqn:EC; [destruct (b_cells b); discriminate|].
    assert (HLc : length cs = length l).
    { apply (f_equal (@length _)) in EC. rewrite app_length in EC. simpl in EC. lia. }
    simpl tl. rewrite HLc, Nat.leb_refl. eexists. split; [reflexivity|]. cbn [b_max b_end b_start b_cells].
    split; auto. split; auto. split; [|split; [reflexivity|]].
    + constructor; cbn [b_max b_end b_start b_cells b_valid b_fresh].
      * apply (f_equal (map c_data)) in EC. rewrite map_app, D in EC. simpl in EC. rewrite EC. reflexivity.
      * simpl in W'. injection W' as W1 W2. rewrite W2. f_equal. destruct l; simpl; [reflexivity|rewrite app_length; simpl; lia].
      * inversion ND'; auto.
      * intros c Hc. apply F'. right; auto.
      * destruct l; simpl; [auto|rewrite app_length; simpl; lia].
      * rewrite E. destruct l; simpl; [lia|rewrite app_length; simpl; lia].
    + intros c Hc Hw. assert (K : In c (c0 :: cs)) by (rewrite <- EC; apply in_or_app; auto).
      destruct K as [<-|K]; auto. simpl in W'. injection W' as W1 W2. lia.
  - rewrite app_length, HL. simpl length. rewrite Nat.add_1_r, Nat.leb_refl. eexists. split; [reflexivity|]. cbn [b_max b_end b_start b_cells].
    split; auto. split; auto. split; [|split; [reflexivity|intros; apply in_or_app; auto]].
    constructor; cbn [b_max b_end b_start b_cells b_valid b_fresh]; auto.
    + rewrite map_app, D. reflexivity.
    + rewrite W', app_length. f_equal. simpl. lia.
    + rewrite app_length. simpl. lia.
    + rewrite E, app_length. simpl. lia.
Qed.

(* Iterators at positions. *)
Lemma nth_cell : forall b l i, CI b l -> i < length l -> exists c, nth_error (b_cells b) i = Some c /\
   nth_error l i = Some (c_data c) /\ c_win c = (b_start b + N.of_nat i)%N.
Proof.
  intros b l i I Hi. pose proof (CI_len _ _ I) as HL. destruct I as [D W ND F V E].
  destruct (nth_error (b_cells b) i) as [c|] eqn:EN; [|apply nth_error_None in EN; lia].
  exists c. split; auto. split; [rewrite <- D, nth_error_map, EN; auto|].
  apply (f_equal (fun x => nth_error x i)) in W. rewrite nth_error_map, EN, wins_nth in W by auto. injection W; auto.
Qed.
Lemma find_nth : forall (cs : list (cell A)) i c, NoDup (map c_node cs) -> nth_error cs i = Some c ->
  find (fun d => c_node d =? c_node c) cs = Some c.
Proof.
  induction cs as [|d cs IH]; intros i c ND H; [destruct i; discriminate|]. simpl. inversion ND; subst. destruct i.
  - injection H as ->. rewrite Nat.eqb_refl. auto.
  - destruct (Nat.eqb_spec (c_node d) (c_node c)) as [K|K]; eauto. exfalso. apply H2. rewrite K. apply in_map. eapply nth_error_In; eauto.
Qed.
Lemma find_In : forall (cs : list (cell A)) c, NoDup (map c_node cs) -> In c cs -> find (fun d => c_node d =? c_node c) cs = Some c.
Proof. intros cs c ND H. apply In_nth_error in H. destruct H as (i & H). eapply find_nth; eauto. Qed.
Lemma next_nth : forall (cs : list (cell A)) i c, NoDup (map c_node cs) -> nth_error cs i = Some c ->
  next_of cs (c_node c) = Some (option_map c_node (nth_error cs (S i))).
Proof.
  induction cs as [|d cs IH]; intros i c ND H; [destruct i; discriminate|]. inversion ND; subst. simpl. destruct i.
  - injection H as ->. rewrite Nat.eqb_refl. destruct cs; reflexivity.
  - destruct (Nat.eqb_spec (c_node d) (c_node c)) as [K|K]; eauto. exfalso. apply H2. rewrite K. apply in_map. eapply nth_error_In; eauto.
Qed.

Definition it_pos b l i : iter := mkIt (option_map c_node (nth_error (b_cells b) i)) (b_start b + N.of_nat i)%N.

Lemma valid_win_iff : forall b l w, CI b l -> (b_end b <= 2 ^ 32)%N ->
  (w < 2 ^ 32)%N -> (valid_win b w = true <-> (b_start b <= w < b_end b)%N).
Proof.
  intros b l w I HB Hw. unfold valid_win. rewrite N.mod_small by auto. rewrite andb_true_iff, N.leb_le, N.ltb_lt. tauto.
Qed.

Lemma begin_pos : forall b l, CI b l -> cb_begin b = it_pos b l 0.
Proof.
  intros b l I. pose proof (CI_len _ _ I) as HL. destruct I as [D W ND F V E]. unfold cb_begin, cb_size, it_pos, cb_end. rewrite V.
  destruct (b_cells b) as [|c cs]; simpl in *.
  - destruct l; [|discriminate]. simpl in *. rewrite E. f_equal. 
  - destruct l; [discriminate|]. simpl in *. injection W as W _. rewrite W. f_equal. lia.
Qed.
Lemma incr_pos : forall b l i, CI b l -> (b_end b < 2 ^ 32)%N ->
  it_incr b (it_pos b l i) = if i <? length l then Some (it_pos b l (S i)) else None.
Proof.
  intros b l i I HB. unfold it_incr, it_valid, it_pos at 1. cbn [it_win].
  destruct (Nat.ltb_spec i (length l)) as [Hi|Hi].
  - assert (V : valid_win b (b_start b + N.of_nat i) = true).
    { apply (valid_win_iff b l); auto; [lia| |]; rewrite (C_end _ _ I) in *; lia. }
    rewrite V. destruct (nth_cell b l i I Hi) as (c & Hc & _ & Hw). unfold it_pos. cbn [it_node it_win]. rewrite Hc. cbn [option_map].
    rewrite (next_nth _ i c (C_nd _ _ I) Hc). f_equal. f_equal. lia.
  - destruct (valid_win b (b_start b + N.of_nat i)) eqn:V; auto.
    unfold it_pos. cbn [it_node]. replace (nth_error (b_cells b) i) with (@None (cell A)); auto.
    symmetry. apply nth_error_None. rewrite (CI_len _ _ I). auto.
Qed.
Lemma advance_pos : forall b l, CI b l -> (b_end b < 2 ^ 32)%N -> forall k i, i <= length l ->
  advance b (it_pos b l i) k = if i + k <=? length l then Some (it_pos b l (i + k)) else None.
Proof.
  intros b l I HB. induction k; intros i Hi; simpl advance.
  - rewrite Nat.add_0_r. destruct (Nat.leb_spec i (length l)); [auto|lia].
  - rewrite incr_pos by auto. destruct (Nat.ltb_spec i (length l)).
    + rewrite IHk by lia. replace (S i + k) with (i + S k) by lia. auto.
    + destruct (Nat.leb_spec (i + S k) (length l)); [lia|auto].
Qed.
Lemma it_at_pos : forall b l i, CI b l -> (b_end b < 2 ^ 32)%N -> it_at b i = if i <=? length l then Some (it_pos b l i) else None.
Proof. intros. unfold it_at. rewrite (begin_pos b l) by auto. rewrite (advance_pos b l) by (auto; lia). reflexivity. Qed.
Lemma deref_pos : forall b l i, CI b l -> (b_end b < 2 ^ 32)%N -> it_deref b (it_pos b l i) = nth_error l i.
Proof.
  intros b l i I HB. unfold it_deref, it_valid, it_pos. cbn [it_win it_node].
  destruct (Nat.lt_ge_cases i (length l)) as [Hi|Hi].
  - assert (V : valid_win b (b_start b + N.of_nat i) = true).
    { apply (valid_win_iff b l); auto; [lia| |]; rewrite (C_end _ _ I) in *; lia. }
    rewrite V. destruct (nth_cell b l i I Hi) as (c & Hc & Hl & Hw). rewrite Hc. cbn [option_map lookup].
    rewrite (find_nth _ i c (C_nd _ _ I) Hc). simpl. auto.
  - replace (nth_error (b_cells b) i) with (@None (cell A)).
    + simpl. destruct (valid_win _ _); symmetry; apply nth_error_None; auto.
    + symmetry. apply nth_error_None. rewrite (CI_len _ _ I). auto.
Qed.

(* Erase and insert. *)
Lemma remove_nth : forall (cs : list (cell A)) i c, NoDup (map c_node cs) -> nth_error cs i = Some c ->
  remove_node cs (c_node c) = Some (firstn i cs ++ skipn (S i) cs).
Proof.
  induction cs as [|d cs IH]; intros i c ND H; [destruct i; discriminate|]. inversion ND; subst. simpl. destruct i.
  - injection H as ->. rewrite Nat.eqb_refl. reflexivity.
  - destruct (Nat.eqb_spec (c_node d) (c_node c)) as [K|K].
    + exfalso. apply H2. rewrite K. apply in_map. eapply nth_error_In; eauto.
    + rewrite (IH i c) by auto. reflexivity.
Qed.
Lemma insert_nth : forall (cs : list (cell A)) i c x, NoDup (map c_node cs) -> nth_error cs i = Some c ->
  insert_before cs (c_node c) x = Some (firstn i cs ++ x :: skipn i cs).
Proof.
  induction cs as [|d cs IH]; intros i c x ND H; [destruct i; discriminate|]. inversion ND; subst. simpl. destruct i.
  - injection H as ->. rewrite Nat.eqb_refl. reflexivity.
  - destruct (Nat.eqb_spec (c_node d) (c_node c)) as [K|K].
    + exfalso. apply H2. rewrite K. apply in_map. eapply nth_error_In; eauto.
    + rewrite (IH i c) by auto. reflexivity.
Qed.
Lemma map_skipn : forall {B C} (f : B -> C) n x, map f (skipn n x) = skipn n (map f x).
Proof. induction n; destruct x; simpl; auto. Qed.
Lemma In_firstn : forall {B} n (x : list B) y, In y (firstn n x) -> In y x.
Proof. intros. rewrite <- (firstn_skipn n x). apply in_or_app. auto. Qed.
Lemma In_skipn : forall {B} n (x : list B) y, In y (skipn n x) -> In y x.
Proof. intros. rewrite <- (firstn_skipn n x). apply in_or_app. auto. Qed.
Lemma NoDup_del : forall {B} (x : list B) i, NoDup x -> NoDup (firstn i x ++ skipn (S i) x).
Proof.
  induction x; intros i H; [destruct i; constructor|]. inversion H; subst. destruct i; [auto|].
  change (NoDup (a :: (firstn i x ++ skipn (S i) x))). constructor; [|auto]. intros K. apply H2. apply in_app_or in K. destruct K; [eapply In_firstn|eapply In_skipn with (n := S i)]; eauto.
Qed.
Lemma NoDup_ins : forall {B} (x : list B) i y, NoDup x -> ~ In y x -> NoDup (firstn i x ++ y :: skipn i x).
Proof.
  induction x; intros i y H K; [destruct i; constructor; auto|]. inversion H; subst. destruct i; simpl; [constructor; auto|].
  constructor.
  - intros Q. apply in_app_or in Q. destruct Q as [Q|[->|Q]]; [apply In_firstn in Q; auto|apply K; left; auto|apply In_skipn in Q; auto].
  - apply IHx; auto. intros Q. apply K. right; auto.
Qed.

Lemma erase_ok : forall b l i, CI b l -> (b_end b < 2 ^ 32)%N -> i < length l ->
  exists b', cb_erase b (it_pos b l i) = Some b' /\ CI b' (firstn i l ++ skipn (S i) l) /\ b_max b' = b_max b /\
    b_start b' = (b_end b + 1)%N /\ b_end b' = (b_end b + N.of_nat (length l))%N.
Proof.
  intros b l i I HB Hi. pose proof (CI_len _ _ I) as HL. unfold cb_erase, it_valid, it_pos. cbn [it_win it_node].
  assert (V : valid_win b (b_start b + N.of_nat i) = true).
  { apply (valid_win_iff b l); auto; [lia| |]; rewrite (C_end _ _ I) in *; lia. }
  rewrite V. destruct (nth_cell b l i I Hi) as (c & Hc & Hl & Hw). rewrite Hc. cbn [option_map].
  rewrite (remove_nth _ i c (C_nd _ _ I) Hc). eexists. split; [reflexivity|].
  destruct I as [D W ND F VV E].
  assert (HLen : length (firstn i (b_cells b) ++ skipn (S i) (b_cells b)) = length l - 1).
  { rewrite app_length, firstn_length, skipn_length. lia. }
  assert (HLen2 : length (firstn i l ++ skipn (S i) l) = length l - 1).
  { rewrite app_length, firstn_length, skipn_length. lia. }
  unfold invalidate. cbn [b_max b_cells b_valid b_start b_end b_fresh]. rewrite HLen. split; [|split; [auto|split; [auto|lia]]].
  constructor; cbn [b_max b_cells b_valid b_start b_end b_fresh].
  - rewrite renumber_data, map_app, <- firstn_map, map_skipn, D. reflexivity.
  - rewrite renumber_win, HLen, HLen2. reflexivity.
  - rewrite renumber_node, map_app, <- firstn_map, map_skipn. apply NoDup_del. auto.
  - intros d Hd. apply (in_map c_node) in Hd. rewrite renumber_node in Hd. apply in_map_iff in Hd. destruct Hd as (d' & E' & Hd).
    rewrite <- E'. apply F. apply in_app_or in Hd. destruct Hd; [eapply In_firstn|eapply In_skipn with (n := S i)]; eauto.
  - rewrite HLen2. lia.
  - rewrite HLen2. lia.
Qed.

Lemma insert_ok : forall b l i a, CI b l -> (b_end b < 2 ^ 32)%N -> i < length l ->
  exists b' it, cb_insert b (it_pos b l i) a = Some (b', it) /\ CI b' (firstn i l ++ a :: skipn i l) /\ b_max b' = b_max b /\
    b_start b' = (b_end b + 1)%N /\ b_end b' = (b_end b + N.of_nat (length l) + 2)%N /\
    it = it_pos b' (firstn i l ++ a :: skipn i l) i.
Proof.
  intros b l i a I HB Hi. pose proof (CI_len _ _ I) as HL. unfold cb_insert, it_valid, it_pos at 1 2. cbn [it_win it_node].
  destruct (b_cells b) as [|c0 cs0] eqn:EC; [simpl in HL; lia|]. rewrite <- EC in *.
  assert (V : valid_win b (b_start b + N.of_nat i) = true).
  { apply (valid_win_iff b l); auto; [lia| |]; rewrite (C_end _ _ I) in *; lia. }
  rewrite V. destruct (nth_cell b l i I Hi) as (c & Hc & Hl & Hw). rewrite Hc. cbn [option_map].
  rewrite (insert_nth _ i c _ (C_nd _ _ I) Hc). destruct I as [D W ND F VV E]. clear EC c0 cs0.
  assert (HLen : length (firstn i (b_cells b) ++ mkCell (b_fresh b) a (b_end b) :: skipn i (b_cells b)) = S (length l)).
  { rewrite app_length, firstn_length. simpl. rewrite skipn_length. lia. }
  assert (HLen2 : length (firstn i l ++ a :: skipn i l) = S (length l)).
  { rewrite app_length, firstn_length. simpl. rewrite skipn_length. lia. }
  set (b' := invalidate _).
  assert (I' : CI b' (firstn i l ++ a :: skipn i l)).
  { subst b'. unfold invalidate. cbn [b_max b_cells b_valid b_start b_end b_fresh]. rewrite HLen.
    constructor; cbn [b_max b_cells b_valid b_start b_end b_fresh].
    - rewrite renumber_data, map_app, <- firstn_map. simpl. rewrite map_skipn, D. reflexivity.
    - rewrite renumber_win, HLen, HLen2. reflexivity.
    - rewrite renumber_node, map_app, <- firstn_map. simpl. rewrite map_skipn. apply NoDup_ins; auto.
      intros K. apply in_map_iff in K. destruct K as (d & Ed & Hd). apply F in Hd. lia.
    - intros d Hd. apply (in_map c_node) in Hd. rewrite renumber_node in Hd. apply in_map_iff in Hd. destruct Hd as (d' & E' & Hd).
      rewrite <- E'. apply in_app_or in Hd. destruct Hd as [Hd|[<-|Hd]]; [apply In_firstn in Hd; apply F in Hd; lia|simpl; lia|apply In_skipn in Hd; apply F in Hd; lia].
    - rewrite HLen2. lia.
    - rewrite HLen2. lia. }
  destruct (nth_cell b' _ i I' ltac:(lia)) as (d & Hd & _ & Hwd).
  assert (Hn : c_node d = b_fresh b).
  { apply (f_equal (option_map c_node)) in Hd. rewrite <- nth_error_map in Hd. subst b'. unfold invalidate in Hd. cbn [b_cells] in Hd.
    rewrite renumber_node, map_app in Hd. rewrite nth_error_app2 in Hd by (rewrite map_length, firstn_length; lia).
    rewrite map_length, firstn_length in Hd. replace (i - Nat.min i (length (b_cells b))) with 0 in Hd by lia. simpl in Hd. congruence. }
  assert (LK : lookup b' (Some (b_fresh b)) = Some d).
  { rewrite <- Hn. apply (find_nth _ i d (C_nd _ _ I') Hd). }
  cbv zeta. rewrite LK. eexists; eexists. split; [reflexivity|].
  split; auto. split; [reflexivity|]. split; [reflexivity|]. split.
  - subst b'. unfold invalidate. cbn [b_max b_cells b_valid b_start b_end b_fresh]. rewrite HLen. lia.
  - unfold it_pos. rewrite Hd. cbn [option_map]. rewrite Hn, Hwd. reflexivity.
Qed.
Lemma insert_empty : forall b it a, CI b [] -> cb_insert b it a = match cb_push b a with Some b' => Some (b', cb_begin b') | None => None end.
Proof. intros b it a I. unfold cb_insert. pose proof (CI_len _ _ I). destruct (b_cells b); [auto|discriminate]. Qed.
Lemma clear_ok : forall b l, CI b l -> CI (cb_clear b) [].
Proof. intros b l I. destruct I. constructor; simpl; auto; [constructor|intros c []|lia]. Qed.

Lemma end_invalid : forall b l, CI b l -> (b_end b < 2 ^ 32)%N -> it_valid b (it_pos b l (length l)) = false.
Proof.
  intros b l I HB. destruct (it_valid b (it_pos b l (length l))) eqn:V; auto. unfold it_valid, it_pos in V. cbn [it_win] in V.
  apply (valid_win_iff b l) in V; auto; [|lia|]; rewrite (C_end _ _ I) in *; lia.
Qed.
End P.
