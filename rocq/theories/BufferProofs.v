(** Lemmas on the Buffer model. *)
From Coq Require Import List Arith Bool Lia Permutation.
From Verif Require Import BufferModel.
Import ListNotations.

Lemma fup_eq : forall B (f : nat -> B) i x, fup f i x i = x.
Proof. intros. unfold fup. now rewrite Nat.eqb_refl. Qed.
Lemma fup_ne : forall B (f : nat -> B) i x j, j <> i -> fup f i x j = f j.
Proof. intros. unfold fup. now rewrite (proj2 (Nat.eqb_neq _ _) H). Qed.

(** List with an element put in at a position, or taken out. *)
Definition ins {B} (l : list B) (i : nat) (x : B) : list B := firstn i l ++ x :: skipn i l.
Definition del {B} (l : list B) (i : nat) : list B := firstn i l ++ skipn (S i) l.

Lemma nth_ins : forall B (l : list B) i x j, i <= length l ->
  nth_error (ins l i x) j = if j <? i then nth_error l j else if j =? i then Some x else nth_error l (j - 1).
Proof.
  intros B l i x j H. unfold ins.
  assert (HL : length (firstn i l) = i) by (rewrite firstn_length; lia).
  destruct (Nat.ltb_spec j i).
  - rewrite nth_error_app1 by lia.
    rewrite <- (firstn_skipn i l) at 2. rewrite nth_error_app1 by lia. reflexivity.
  - rewrite nth_error_app2 by lia. rewrite HL. destruct (Nat.eqb_spec j i).
    + subst. now rewrite Nat.sub_diag.
    + replace (j - i) with (S (j - i - 1)) by lia. cbn [nth_error].
      rewrite <- (firstn_skipn i l) at 2. rewrite nth_error_app2 by lia. rewrite HL. f_equal. lia.
Qed.
Lemma nth_del : forall B (l : list B) i j, i < length l ->
  nth_error (del l i) j = if j <? i then nth_error l j else nth_error l (S j).
Proof.
  intros B l i j H. unfold del.
  assert (HL : length (firstn i l) = i) by (rewrite firstn_length; lia).
  destruct (Nat.ltb_spec j i).
  - rewrite nth_error_app1 by lia.
    rewrite <- (firstn_skipn i l) at 2. rewrite nth_error_app1 by lia. reflexivity.
  - rewrite nth_error_app2 by lia. rewrite HL.
    rewrite <- (firstn_skipn (S i) l) at 2.
    assert (HL2 : length (firstn (S i) l) = S i) by (rewrite firstn_length; lia).
    rewrite nth_error_app2 by lia. rewrite HL2. f_equal; lia.
Qed.
Lemma ins_perm : forall B (l : list B) i x, Permutation (ins l i x) (x :: l).
Proof. intros. unfold ins. rewrite <- (firstn_skipn i l) at 3. symmetry. apply Permutation_middle. Qed.
Lemma del_perm : forall B (l : list B) i x, nth_error l i = Some x -> Permutation l (x :: del l i).
Proof.
  intros B l i x H. unfold del. destruct (nth_error_split _ _ H) as [a [b [-> HL]]]. subst i.
  rewrite firstn_app, Nat.sub_diag, firstn_all. cbn [firstn]. rewrite app_nil_r.
  replace (S (length a)) with (length (a ++ [x])) by (rewrite app_length; simpl; lia).
  replace (a ++ x :: b) with ((a ++ [x]) ++ b) by (rewrite <- app_assoc; reflexivity).
  rewrite skipn_app, Nat.sub_diag, skipn_all. cbn [skipn app].
  rewrite <- app_assoc. symmetry. apply Permutation_middle.
Qed.
Lemma map_ins : forall B C (f : B -> C) l i x, map f (ins l i x) = ins (map f l) i (f x).
Proof. intros. unfold ins. rewrite map_app, firstn_map. cbn [map]. now rewrite skipn_map. Qed.
Lemma map_del : forall B C (f : B -> C) l i, map f (del l i) = del (map f l) i.
Proof. intros. unfold del. now rewrite map_app, firstn_map, skipn_map. Qed.
Lemma ins_end : forall B (l : list B) x, ins l (length l) x = l ++ [x].
Proof. intros. unfold ins. now rewrite firstn_all, skipn_all. Qed.

(** The shifting loops. *)
Lemma shift_down_ok : forall k i (m : nat -> option nat) ph ad,
  (forall j, i <= j < i + k -> m (S j) <> None) ->
  (forall j1 j2 p, i < j1 <= i + k -> i < j2 <= i + k -> m j1 = Some p -> m j2 = Some p -> j1 = j2) ->
  exists m' ph' ad', shift_down k i (m, ph, ad) = Some (m', ph', ad')
    /\ (forall j, m' j = if (i <=? j) && (j <? i + k) then m (S j) else m j)
    /\ (forall j, ad' j = if (i <=? j) && (j <? i + k) then ad (S j) else ad j)
    /\ (forall j p, i <= j < i + k -> m (S j) = Some p -> ph' p = j)
    /\ (forall p, (forall j, i <= j < i + k -> m (S j) <> Some p) -> ph' p = ph p).
Proof.
  induction k; intros i m ph ad HS HI.
  - exists m, ph, ad. split; [reflexivity|]. split; [|split; [|split]].
    + intros j. destruct (Nat.leb_spec i j), (Nat.ltb_spec j (i + 0)); simpl; auto; lia.
    + intros j. destruct (Nat.leb_spec i j), (Nat.ltb_spec j (i + 0)); simpl; auto; lia.
    + intros; lia.
    + auto.
  - cbn [shift_down]. destruct (m (S i)) as [p|] eqn:E; [|exfalso; apply (HS i); [lia|auto]].
    destruct (IHk (S i) (fup m i (Some p)) (fup ph p i) (fup ad i (ad (S i)))) as [m' [ph' [ad' [E' [M [D [P Q]]]]]]].
    { intros j Hj. rewrite fup_ne by lia. apply HS. lia. }
    { intros j1 j2 q H1 H2. rewrite !fup_ne by lia. apply HI; lia. }
    exists m', ph', ad'. split; [exact E'|]. split; [|split; [|split]].
    + intros j. rewrite M. destruct (Nat.leb_spec (S i) j), (Nat.ltb_spec j (S i + k)),
        (Nat.leb_spec i j), (Nat.ltb_spec j (i + S k)); simpl; try lia; try (rewrite fup_ne by lia; reflexivity).
      assert (j = i) by lia. subst. rewrite fup_eq. auto.
    + intros j. rewrite D. destruct (Nat.leb_spec (S i) j), (Nat.ltb_spec j (S i + k)),
        (Nat.leb_spec i j), (Nat.ltb_spec j (i + S k)); simpl; try lia; try (rewrite fup_ne by lia; reflexivity).
      assert (j = i) by lia. subst. rewrite fup_eq. auto.
    + intros j q Hj Hq. destruct (Nat.eq_dec j i).
      * subst j. rewrite E in Hq. injection Hq as <-. rewrite Q.
        -- apply fup_eq.
        -- intros j Hj2. rewrite fup_ne by lia. intros C.
           assert (S j = S i) by (apply (HI (S j) (S i) p); auto; lia). lia.
      * apply P; [lia|]. rewrite fup_ne by lia. auto.
    + intros q Hq. rewrite Q.
      * apply fup_ne. intros ->. apply (Hq i); [lia|auto].
      * intros j Hj. rewrite fup_ne by lia. apply Hq. lia.
Qed.

Lemma shift_up_ok : forall k i (m : nat -> option nat) ph ad, k <= i ->
  (forall j, i - k <= j < i -> m j <> None) ->
  (forall j1 j2 p, i - k <= j1 < i -> i - k <= j2 < i -> m j1 = Some p -> m j2 = Some p -> j1 = j2) ->
  exists m' ph' ad', shift_up k i (m, ph, ad) = Some (m', ph', ad')
    /\ (forall j, m' j = if (i - k <? j) && (j <=? i) then m (j - 1) else m j)
    /\ (forall j, ad' j = if (i - k <? j) && (j <=? i) then ad (j - 1) else ad j)
    /\ (forall j p, i - k <= j < i -> m j = Some p -> ph' p = S j)
    /\ (forall p, (forall j, i - k <= j < i -> m j <> Some p) -> ph' p = ph p).
Proof.
  induction k; intros i m ph ad HK HS HI.
  - exists m, ph, ad. split; [reflexivity|]. split; [|split; [|split]].
    + intros j. destruct (Nat.ltb_spec (i - 0) j), (Nat.leb_spec j i); simpl; auto; lia.
    + intros j. destruct (Nat.ltb_spec (i - 0) j), (Nat.leb_spec j i); simpl; auto; lia.
    + intros; lia.
    + auto.
  - cbn [shift_up]. destruct (m (i - 1)) as [p|] eqn:E; [|exfalso; apply (HS (i - 1)); [lia|auto]].
    destruct (IHk (i - 1) (fup m i (Some p)) (fup ph p i) (fup ad i (ad (i - 1)))) as [m' [ph' [ad' [E' [M [D [P Q]]]]]]].
    { lia. }
    { intros j Hj. rewrite fup_ne by lia. apply HS. lia. }
    { intros j1 j2 q H1 H2. rewrite !fup_ne by lia. apply HI; lia. }
    exists m', ph', ad'. split; [exact E'|]. split; [|split; [|split]].
    + intros j. rewrite M. destruct (Nat.ltb_spec (i - 1 - k) j), (Nat.leb_spec j (i - 1)),
        (Nat.ltb_spec (i - S k) j), (Nat.leb_spec j i); simpl; try lia; try (rewrite fup_ne by lia; reflexivity).
      assert (j = i) by lia. subst. rewrite fup_eq. auto.
    + intros j. rewrite D. destruct (Nat.ltb_spec (i - 1 - k) j), (Nat.leb_spec j (i - 1)),
        (Nat.ltb_spec (i - S k) j), (Nat.leb_spec j i); simpl; try lia; try (rewrite fup_ne by lia; reflexivity).
      assert (j = i) by lia. subst. rewrite fup_eq. auto.
    + intros j q Hj Hq. destruct (Nat.eq_dec j (i - 1)).
      * subst j. rewrite E in Hq. injection Hq as <-. rewrite Q.
        -- rewrite fup_eq. lia.
        -- intros j Hj2. rewrite fup_ne by lia. intros C.
           assert (j = i - 1) by (apply (HI j (i - 1) p); auto; lia). lia.
      * apply P; [lia|]. rewrite fup_ne by lia. auto.
    + intros q Hq. rewrite Q.
      * apply fup_ne. intros ->. apply (Hq (i - 1)); [lia|auto].
      * intros j Hj. rewrite fup_ne by lia. apply Hq. lia.
Qed.

(** Free list: the chain [st] of returned slots, then the slots from [k] on, never used. *)
Fixpoint fchain (nx : nat -> nat) (st : list nat) (k : nat) : Prop :=
  match st with [] => True | p :: r => nx p = hd k r /\ fchain nx r k end.
Lemma fchain_ext : forall nx nx' st k, (forall p, In p st -> nx' p = nx p) -> fchain nx st k -> fchain nx' st k.
Proof.
  induction st; simpl; auto. intros k H [H1 H2]. split; [rewrite H; auto|]. apply IHst; auto.
Qed.

Section INV.
Context {A : Type}.
Implicit Types (b : buf A) (l : list (nat * A)).

(** The contents [l] as pairs of pool index and value. *)
Record bi b l (st : list nat) (k : nat) : Prop := mkBI {
  i_map : forall j, b_map b j = nth_error (map fst l) j;
  i_nv : b_nv b = length l;
  i_len : length l <= b_n b;
  i_pos : 0 < b_n b;
  i_psz : b_psz b = b_n b * 2;
  i_vsz : b_vsz b = b_n b;
  i_vcap : b_vcap b = b_cap b;
  i_cap : b_n b <= b_cap b;
  i_nd : NoDup (map fst l ++ st);
  i_in : forall p, In p (map fst l ++ st) <-> p < k;
  i_k : k <= b_n b;
  i_free : b_free b = hd k st;
  i_chain : fchain (b_next b) st k;
  i_seq : forall i, k <= i -> S i < b_psz b -> b_next b i = S i;
  i_val : forall p, b_val b p = true <-> In p (map fst l);
  i_data : forall p, b_data b p <> None <-> In p (map fst l);
  i_get : forall p x, In (p, x) l -> b_data b p = Some x
}.
(** physical_idx of the entries. *)
Definition phys_ok b l : Prop := forall j p, nth_error (map fst l) j = Some p -> b_phys b p = j.
(** address_map_ of the entries. *)
Definition addr_ok b l : Prop := forall j p, nth_error (map fst l) j = Some p -> b_addr b j = p.

Lemma bi_count : forall b l st k, bi b l st k -> length l + length st = k.
Proof.
  intros b l st k H.
  assert (P : Permutation (map fst l ++ st) (seq 0 k)).
  { apply NoDup_Permutation; [apply (i_nd _ _ _ _ H)|apply seq_NoDup|].
    intros p. rewrite (i_in _ _ _ _ H). rewrite in_seq. lia. }
  apply Permutation_length in P. now rewrite app_length, map_length, seq_length in P.
Qed.

Lemma u_inj : forall (u : list nat) j1 j2 p, NoDup u -> nth_error u j1 = Some p -> nth_error u j2 = Some p -> j1 = j2.
Proof.
  intros u j1 j2 p ND H1 H2. apply (proj1 (NoDup_nth_error u) ND).
  - apply nth_error_Some. congruence.
  - congruence.
Qed.
Lemma NoDup_l : forall (u v : list nat), NoDup (u ++ v) -> NoDup u.
Proof. induction u; intros v H; [constructor|]. inversion H; subst. constructor; [|eauto]. intros C. apply H2. apply in_or_app. auto. Qed.
Lemma NoDup_lr : forall (u v : list nat) p, NoDup (u ++ v) -> In p u -> In p v -> False.
Proof.
  induction u; intros v p H H1 H2; [inversion H1|]. inversion H; subst. destruct H1 as [->|H1].
  - apply H4. apply in_or_app. auto.
  - eauto.
Qed.

(** The slot taken by push_back and insert. *)
Lemma free_fresh : forall b l st k, bi b l st k -> length l < b_n b ->
  ~ In (b_free b) (map fst l) /\ b_free b < b_n b /\
  exists st' k', b_next b (b_free b) = hd k' st' /\ fchain (b_next b) st' k'
    /\ NoDup (b_free b :: map fst l ++ st') /\ (forall p, In p (b_free b :: map fst l ++ st') <-> p < k')
    /\ k' <= b_n b /\ k <= k'.
Proof.
  intros b l st k H HL. pose proof (bi_count _ _ _ _ H) as HC.
  pose proof (i_nd _ _ _ _ H) as ND. pose proof (i_in _ _ _ _ H) as IN. pose proof (i_free _ _ _ _ H) as FR.
  pose proof (i_chain _ _ _ _ H) as CH. pose proof (i_k _ _ _ _ H) as HK. pose proof (i_psz _ _ _ _ H) as PS.
  destruct st as [|p st]; cbn [hd] in FR.
  - rewrite app_nil_r in *. simpl in HC. split; [|split].
    + rewrite FR. intros C. apply IN in C. lia.
    + lia.
    + exists [], (S k). rewrite app_nil_r. split; [|split; [exact Logic.I|split; [|split; [|lia]]]].
      * rewrite FR. apply (i_seq _ _ _ _ H); lia.
      * constructor; [|auto]. rewrite FR. intros C. apply IN in C. lia.
      * intros q. cbn [In]. rewrite IN, FR. lia.
  - destruct CH as [C1 C2].
    assert (ND' : NoDup (p :: map fst l ++ st)).
    { eapply Permutation_NoDup; [|exact ND]. symmetry. apply Permutation_middle. }
    split; [|split].
    + rewrite FR. intros C. apply (NoDup_lr _ _ p ND); simpl; auto.
    + rewrite FR. assert (p < k) by (apply IN; apply in_or_app; right; left; auto). lia.
    + exists st, k. rewrite FR. split; [auto|]. split; [auto|]. split; [auto|]. split; [|lia].
      intros q. rewrite <- IN. rewrite in_app_iff. cbn [In]. rewrite in_app_iff. tauto.
Qed.

(** Contents of the pool after a new object was put into a fresh slot. *)
Lemma new_val : forall b l f, ~ In f (map fst l) ->
  (forall p, b_val b p = true <-> In p (map fst l)) ->
  forall p, fup (b_val b) f true p = true <-> In p (f :: map fst l).
Proof.
  intros b l f HF H p. destruct (Nat.eq_dec p f).
  - subst. rewrite fup_eq. cbn [In]. tauto.
  - rewrite fup_ne, H by auto. cbn [In]. split; [auto|intros [E|E]; congruence].
Qed.

(** insert at any position; push_back is the insertion at the end. *)
Lemma insert_ok : forall b l st k i x, bi b l st k -> b_inf b = None -> i <= length l -> length l < b_n b ->
  exists b' st' k', insert b i x = Some (b', b_free b) /\ bi b' (ins l i (b_free b, x)) st' k'
    /\ ~ In (b_free b) (map fst l) /\ b_n b' = b_n b /\ b_inf b' = None /\ (phys_ok b l -> phys_ok b' (ins l i (b_free b, x))).
Proof.
  intros b l st k i x H HI Hi HL. unfold insert, pre_grow. rewrite HI.
  destruct (free_fresh _ _ _ _ H HL) as [HF [HB [st' [k' [E1 [E2 [ND [IN [HK' HK2]]]]]]]]].
  unfold num_free. rewrite (i_nv _ _ _ _ H).
  destruct (Nat.eqb_spec (b_n b - length l) 0); [lia|].
  destruct (Nat.ltb_spec (length l) i); [lia|].
  rewrite (i_vsz _ _ _ _ H). destruct (Nat.leb_spec (b_n b) (b_free b)); [lia|].
  set (f := b_free b) in *.
  assert (NDu : NoDup (map fst l)) by (eapply NoDup_l, (i_nd _ _ _ _ H)).
  destruct (shift_up_ok (length l - i) (length l) (b_map b) (fup (b_phys b) f i) (b_addr b))
    as [m [ph [ad [E [M [D [P Q]]]]]]].
  { lia. }
  { intros j Hj. rewrite (i_map _ _ _ _ H). apply nth_error_Some. rewrite map_length. lia. }
  { intros j1 j2 p _ _. rewrite !(i_map _ _ _ _ H). apply u_inj, NDu. }
  rewrite E. eexists _, st', k'. split; [reflexivity|].
  assert (HU : Permutation (map fst (ins l i (f, x))) (f :: map fst l)).
  { rewrite map_ins. apply ins_perm. }
  assert (HP : forall p, In p (map fst (ins l i (f, x))) <-> In p (f :: map fst l)).
  { intros p. split; apply Permutation_in; [|symmetry]; exact HU. }
  split; [|split; [auto|split; [reflexivity|split; [exact HI|]]]].
  - constructor; cbn [b_map b_nv b_n b_psz b_vsz b_vcap b_cap b_free b_next b_val b_data].
    + intros j. rewrite map_ins, nth_ins by (rewrite map_length; lia).
      destruct (Nat.eqb_spec j i).
      * subst. rewrite fup_eq. destruct (Nat.ltb_spec i i); [lia|]. reflexivity.
      * rewrite fup_ne by auto. rewrite M, !(i_map _ _ _ _ H).
        replace (length l - (length l - i)) with i by lia.
        destruct (Nat.ltb_spec i j), (Nat.leb_spec j (length l)), (Nat.ltb_spec j i); cbn [andb]; try lia; auto.
        transitivity (@None nat); [|symmetry]; apply nth_error_None; rewrite map_length; lia.
    + rewrite (Permutation_length (ins_perm _ l i (f, x))). simpl. reflexivity.
    + rewrite (Permutation_length (ins_perm _ l i (f, x))). simpl. lia.
    + apply (i_pos _ _ _ _ H).
    + apply (i_psz _ _ _ _ H).
    + reflexivity.
    + apply (i_vcap _ _ _ _ H).
    + apply (i_cap _ _ _ _ H).
    + eapply Permutation_NoDup; [|exact ND]. symmetry.
      change (f :: map fst l ++ st') with ((f :: map fst l) ++ st'). apply Permutation_app_tail. exact HU.
    + intros p. rewrite <- IN. rewrite in_app_iff, HP. cbn [In]. rewrite in_app_iff. tauto.
    + exact HK'.
    + exact E1.
    + exact E2.
    + intros i0 Hi0 HS. apply (i_seq _ _ _ _ H); [lia|exact HS].
    + intros p. rewrite HP. apply new_val; [auto|apply (i_val _ _ _ _ H)].
    + intros p. rewrite HP. destruct (Nat.eq_dec p f).
      * subst p. rewrite fup_eq. cbn [In]. split; [auto|discriminate].
      * rewrite fup_ne, (i_data _ _ _ _ H) by auto. cbn [In]. split; [auto|intros [C|C]; congruence].
    + intros p y Hp. apply (Permutation_in _ (ins_perm _ l i (f, x))) in Hp. destruct Hp as [Hp|Hp].
      * injection Hp as <- <-. apply fup_eq.
      * rewrite fup_ne; [apply (i_get _ _ _ _ H); auto|]. intros ->. apply HF. apply in_map_iff. exists (f, y). auto.
  - intros PH j p. cbn [b_phys]. rewrite map_ins, nth_ins by (rewrite map_length; lia).
    replace (length l - (length l - i)) with i in * by lia.
    destruct (Nat.ltb_spec j i).
    + intros Hp. rewrite Q.
      * rewrite fup_ne; [apply PH; auto|]. intros ->. apply HF. eapply nth_error_In; eauto.
      * intros j2 Hj2. rewrite (i_map _ _ _ _ H). intros C. assert (j = j2) by (eapply u_inj; eauto). lia.
    + destruct (Nat.eqb_spec j i).
      * intros Hp. injection Hp as <-. rewrite Q; [subst; apply fup_eq|].
        intros j2 _. rewrite (i_map _ _ _ _ H). intros C. apply HF. eapply nth_error_In; eauto.
      * intros Hp. cbn [fst] in *. rewrite (P (j - 1) p); [lia| |rewrite (i_map _ _ _ _ H); auto].
        assert (j - 1 < length (map fst l)) by (apply nth_error_Some; congruence). rewrite map_length in *. lia.
Qed.

Lemma insert_refuse : forall b l st k i x, bi b l st k -> b_inf b = None -> ~ (i <= length l /\ length l < b_n b) ->
  insert b i x = None.
Proof.
  intros b l st k i x H HI HN. unfold insert, pre_grow. rewrite HI. unfold num_free. rewrite (i_nv _ _ _ _ H).
  destruct (Nat.eqb_spec (b_n b - length l) 0); [reflexivity|].
  destruct (Nat.ltb_spec (length l) i); [reflexivity|]. exfalso. lia.
Qed.

(** push_back, given the free slot. *)
Lemma push_core : forall b l st k x, bi b l st k -> length l < b_n b ->
  let f := b_free b in
  let b' := mkB (b_n b) (b_cap b) (fup (b_map b) (b_nv b) (Some f)) (b_psz b) (b_pcap b)
                      (fup (b_data b) f (Some x)) (b_next b) (fup (b_phys b) f (b_nv b)) (b_next b f)
                      (S (b_nv b)) (b_vsz b) (b_vcap b) (fup (b_val b) f true) (fup (b_addr b) (b_nv b) f) (b_inf b) in
  exists st' k', bi b' (l ++ [(f, x)]) st' k' /\ ~ In f (map fst l) /\ f < b_n b
    /\ (phys_ok b l -> phys_ok b' (l ++ [(f, x)])) /\ (addr_ok b l -> addr_ok b' (l ++ [(f, x)])).
Proof.
  intros b l st k x H HL f b'.
  destruct (free_fresh _ _ _ _ H HL) as [HF [HB [st' [k' [E1 [E2 [ND [IN [HK' HK2]]]]]]]]].
  fold f in HF, HB, E1, ND, IN. exists st', k'.
  assert (HU : Permutation (map fst (l ++ [(f, x)])) (f :: map fst l)).
  { rewrite map_app. cbn [map fst]. symmetry. apply Permutation_cons_append. }
  assert (HP : forall p, In p (map fst (l ++ [(f, x)])) <-> In p (f :: map fst l)).
  { intros p. split; apply Permutation_in; [|symmetry]; exact HU. }
  assert (NT : forall j p, nth_error (map fst (l ++ [(f, x)])) j = Some p ->
               (j < length l /\ nth_error (map fst l) j = Some p) \/ (j = length l /\ p = f)).
  { intros j p. rewrite map_app. cbn [map fst]. destruct (Nat.lt_ge_cases j (length l)).
    - rewrite nth_error_app1 by (rewrite map_length; lia). auto.
    - rewrite nth_error_app2 by (rewrite map_length; lia). rewrite map_length.
      destruct (j - length l) eqn:EJ; cbn [nth_error]; intros C.
      + injection C as <-. right. split; [lia|auto].
      + destruct n; discriminate. }
  split; [|split; [auto|split; [auto|split]]].
  - constructor; unfold b'; cbn [b_map b_nv b_n b_psz b_vsz b_vcap b_cap b_free b_next b_val b_data].
    + intros j. rewrite (i_nv _ _ _ _ H). rewrite map_app. cbn [map fst]. destruct (Nat.eq_dec j (length l)).
      * subst. rewrite fup_eq. rewrite nth_error_app2 by (rewrite map_length; lia). now rewrite map_length, Nat.sub_diag.
      * rewrite fup_ne, (i_map _ _ _ _ H) by auto. destruct (Nat.lt_ge_cases j (length l)).
        -- rewrite nth_error_app1 by (rewrite map_length; lia). auto.
        -- transitivity (@None nat); [|symmetry]; apply nth_error_None; rewrite ?app_length, map_length; simpl; lia.
    + rewrite app_length, (i_nv _ _ _ _ H). simpl. lia.
    + rewrite app_length. simpl. lia.
    + apply (i_pos _ _ _ _ H).
    + apply (i_psz _ _ _ _ H).
    + apply (i_vsz _ _ _ _ H).
    + apply (i_vcap _ _ _ _ H).
    + apply (i_cap _ _ _ _ H).
    + eapply Permutation_NoDup; [|exact ND]. symmetry.
      change (f :: map fst l ++ st') with ((f :: map fst l) ++ st'). apply Permutation_app_tail. exact HU.
    + intros p. rewrite <- IN. rewrite in_app_iff, HP. cbn [In]. rewrite in_app_iff. tauto.
    + exact HK'.
    + exact E1.
    + exact E2.
    + intros i0 Hi0 HS. apply (i_seq _ _ _ _ H); [lia|exact HS].
    + intros p. rewrite HP. apply new_val; [auto|apply (i_val _ _ _ _ H)].
    + intros p. rewrite HP. destruct (Nat.eq_dec p f).
      * subst p. rewrite fup_eq. cbn [In]. split; [auto|discriminate].
      * rewrite fup_ne, (i_data _ _ _ _ H) by auto. cbn [In]. split; [auto|intros [C|C]; congruence].
    + intros p y Hp. apply in_app_or in Hp. destruct Hp as [Hp|[Hp|[]]].
      * rewrite fup_ne; [apply (i_get _ _ _ _ H); auto|]. intros ->. apply HF. apply in_map_iff. exists (f, y). auto.
      * injection Hp as <- <-. apply fup_eq.
  - intros PH j p Hp. unfold b'. cbn [b_phys]. rewrite (i_nv _ _ _ _ H). destruct (NT _ _ Hp) as [[HJ Hq]|[-> ->]].
    + rewrite fup_ne; [apply PH; auto|]. intros ->. apply HF. eapply nth_error_In; eauto.
    + apply fup_eq.
  - intros AH j p Hp. unfold b'. cbn [b_addr]. rewrite (i_nv _ _ _ _ H). destruct (NT _ _ Hp) as [[HJ Hq]|[-> ->]].
    + rewrite fup_ne by lia. apply AH; auto.
    + apply fup_eq.
Qed.

Lemma push_ok : forall b l st k x, bi b l st k -> b_inf b = None -> length l < b_n b ->
  exists b' st' k', push_back b x = Some (b', b_free b) /\ bi b' (l ++ [(b_free b, x)]) st' k'
    /\ ~ In (b_free b) (map fst l) /\ b_n b' = b_n b /\ b_inf b' = None
    /\ (phys_ok b l -> phys_ok b' (l ++ [(b_free b, x)])).
Proof.
  intros b l st k x H HI HL. unfold push_back, pre_grow. rewrite HI. unfold num_free.
  destruct (Nat.eqb_spec (b_n b - b_nv b) 0); [rewrite (i_nv _ _ _ _ H) in *; lia|].
  destruct (push_core _ _ _ _ x H HL) as [st' [k' [B [F [G [P _]]]]]].
  destruct (Nat.leb_spec (b_vsz b) (b_free b)); [rewrite (i_vsz _ _ _ _ H) in *; lia|].
  rewrite HI in *. eexists _, st', k'. split; [reflexivity|]. split; [exact B|]. split; [auto|]. split; [auto|]. split; auto.
Qed.
Lemma push_refuse : forall b l st k x, bi b l st k -> b_inf b = None -> b_n b <= length l -> push_back b x = None.
Proof.
  intros b l st k x H HI HN. unfold push_back, pre_grow. rewrite HI. unfold num_free. rewrite (i_nv _ _ _ _ H).
  destruct (Nat.eqb_spec (b_n b - length l) 0); [reflexivity|lia].
Qed.

Lemma erase_ok : forall b l st k i, bi b l st k -> i < length l ->
  exists b' st' f x, erase b i = Some b' /\ nth_error l i = Some (f, x) /\ bi b' (del l i) st' k
    /\ b_n b' = b_n b /\ b_inf b' = b_inf b /\ b_val b' f = false
    /\ (phys_ok b l -> phys_ok b' (del l i)) /\ (addr_ok b l -> addr_ok b' (del l i))
    /\ b_phys b' f = b_phys b f.
Proof.
  intros b l st k i H Hi. unfold erase. rewrite (i_nv _ _ _ _ H).
  destruct (Nat.leb_spec (length l) i); [lia|].
  destruct (nth_error l i) as [[f x]|] eqn:EI; [|apply nth_error_None in EI; lia].
  assert (EU : nth_error (map fst l) i = Some f) by (rewrite nth_error_map, EI; reflexivity).
  rewrite (i_map _ _ _ _ H), EU. rewrite (i_vsz _ _ _ _ H).
  assert (HFk : f < k) by (apply (i_in _ _ _ _ H); apply in_or_app; left; eapply nth_error_In; eauto).
  pose proof (i_k _ _ _ _ H) as HK.
  destruct (Nat.leb_spec (b_n b) f); [lia|].
  rewrite (i_get _ _ _ _ H f x) by (eapply nth_error_In; eauto).
  assert (NDu : NoDup (map fst l)) by (eapply NoDup_l, (i_nd _ _ _ _ H)).
  destruct (shift_down_ok (length l - 1 - i) i (b_map b) (b_phys b) (b_addr b)) as [m [ph [ad [E [M [D [P Q]]]]]]].
  { intros j Hj. rewrite (i_map _ _ _ _ H). apply nth_error_Some. rewrite map_length. lia. }
  { intros j1 j2 p _ _. rewrite !(i_map _ _ _ _ H). apply u_inj, NDu. }
  rewrite E. eexists _, (f :: st), f, x. split; [reflexivity|]. split; [reflexivity|].
  assert (HU : Permutation (map fst l) (f :: map fst (del l i))).
  { rewrite map_del. apply del_perm. exact EU. }
  assert (NDf : NoDup (f :: map fst (del l i))) by (eapply Permutation_NoDup; eauto).
  assert (HFn : ~ In f (map fst (del l i))) by (inversion NDf; auto).
  assert (HP : forall p, In p (map fst (del l i)) <-> In p (map fst l) /\ p <> f).
  { intros p. split.
    - intros C. split; [eapply Permutation_in; [symmetry; exact HU|right; auto]|]. intros ->. auto.
    - intros [C1 C2]. apply (Permutation_in _ HU) in C1. destruct C1; [congruence|auto]. }
  assert (HLd : S (length (del l i)) = length l).
  { apply Permutation_length in HU. rewrite map_length in HU. cbn [length] in HU. rewrite map_length in HU. lia. }
  split; [|split; [reflexivity|split; [reflexivity|split; [apply fup_eq|split; [|split]]]]].
  - constructor; cbn [b_map b_nv b_n b_psz b_vsz b_vcap b_cap b_free b_next b_val b_data].
    + intros j. rewrite map_del, nth_del by (rewrite map_length; lia).
      destruct (Nat.eq_dec j (length l - 1)).
      * subst j. rewrite fup_eq. destruct (Nat.ltb_spec (length l - 1) i); [lia|].
        symmetry. apply nth_error_None. rewrite map_length. lia.
      * rewrite fup_ne by auto. rewrite M, !(i_map _ _ _ _ H).
        destruct (Nat.leb_spec i j), (Nat.ltb_spec j (i + (length l - 1 - i))), (Nat.ltb_spec j i); cbn [andb]; try lia; auto.
        transitivity (@None nat); [|symmetry]; apply nth_error_None; rewrite map_length; lia.
    + lia.
    + pose proof (i_len _ _ _ _ H). lia.
    + apply (i_pos _ _ _ _ H).
    + apply (i_psz _ _ _ _ H).
    + reflexivity.
    + apply (i_vcap _ _ _ _ H).
    + apply (i_cap _ _ _ _ H).
    + eapply Permutation_NoDup; [|exact (i_nd _ _ _ _ H)].
      rewrite HU. cbn [app]. apply Permutation_middle.
    + intros p. rewrite <- (i_in _ _ _ _ H). rewrite !in_app_iff, HP. cbn [In].
      assert (In f (map fst l)) by (eapply nth_error_In; eauto).
      destruct (Nat.eq_dec p f); [subst|]; tauto || (split; [|]; intuition congruence).
    + exact HK.
    + reflexivity.
    + cbn [fchain]. split; [rewrite fup_eq; apply (i_free _ _ _ _ H)|].
      apply (fchain_ext (b_next b)); [|apply (i_chain _ _ _ _ H)].
      intros p Hp. apply fup_ne. intros ->. apply (NoDup_lr _ _ f (i_nd _ _ _ _ H)); auto. eapply nth_error_In; eauto.
    + intros j Hj HS. rewrite fup_ne by lia. apply (i_seq _ _ _ _ H); auto.
    + intros p. rewrite HP. destruct (Nat.eq_dec p f).
      * subst p. rewrite fup_eq. split; [discriminate|intros [_ C]; congruence].
      * rewrite fup_ne, (i_val _ _ _ _ H) by auto. tauto.
    + intros p. rewrite HP. destruct (Nat.eq_dec p f).
      * subst p. rewrite fup_eq. split; [congruence|intros [_ C]; congruence].
      * rewrite fup_ne, (i_data _ _ _ _ H) by auto. tauto.
    + intros p y Hp.
      assert (In (p, y) l).
      { eapply Permutation_in; [symmetry; apply (del_perm _ l i (f, x) EI)|]. right. auto. }
      rewrite fup_ne; [apply (i_get _ _ _ _ H); auto|]. intros ->. apply HFn. apply in_map_iff. exists (f, y). auto.
  - intros PH j p. cbn [b_phys]. rewrite map_del, nth_del by (rewrite map_length; lia).
    destruct (Nat.ltb_spec j i); intros Hp.
    + rewrite Q; [apply PH; auto|]. intros j2 Hj2. rewrite (i_map _ _ _ _ H). intros C.
      assert (j = S j2) by (apply (u_inj (map fst l) j (S j2) p); auto). lia.
    + assert (S j < length (map fst l)) by (apply nth_error_Some; congruence). rewrite map_length in *.
      apply P; [lia|]. rewrite (i_map _ _ _ _ H). auto.
  - intros AH j p. cbn [b_addr]. rewrite map_del, nth_del by (rewrite map_length; lia).
    destruct (Nat.ltb_spec j i); intros Hp.
    + rewrite fup_ne by lia. rewrite D. destruct (Nat.leb_spec i j); [lia|]. simpl. apply AH; auto.
    + assert (S j < length (map fst l)) by (apply nth_error_Some; congruence). rewrite map_length in *.
      rewrite fup_ne by lia. rewrite D. destruct (Nat.leb_spec i j), (Nat.ltb_spec j (i + (length l - 1 - i))); try lia.
      simpl. apply AH; auto.
  - cbn [b_phys]. apply Q. intros j Hj. rewrite (i_map _ _ _ _ H). intros C.
    assert (S j = i) by (apply (u_inj (map fst l) (S j) i f); auto). lia.
Qed.
Lemma erase_refuse : forall b l st k i, bi b l st k -> length l <= i -> erase b i = None.
Proof. intros. unfold erase. rewrite (i_nv _ _ _ _ H). destruct (Nat.leb_spec (length l) i); [auto|lia]. Qed.

Lemma clear_ok : forall b l st k, bi b l st k ->
  exists b', clear b = Some b' /\ bi b' [] [] 0 /\ b_n b' = b_n b /\ b_inf b' = b_inf b.
Proof.
  intros b l st k H. unfold clear. pose proof (i_pos _ _ _ _ H). pose proof (i_psz _ _ _ _ H).
  destruct (Nat.eqb_spec (b_psz b) 0); [lia|]. eexists. split; [reflexivity|]. split; [|auto].
  constructor; cbn [b_map b_nv b_n b_psz b_vsz b_vcap b_cap b_free b_next b_val b_data map app length hd fchain In]; auto; try lia.
  - intros j. destruct j; auto.
  - apply (i_vsz _ _ _ _ H).
  - apply (i_vcap _ _ _ _ H).
  - apply (i_cap _ _ _ _ H).
  - constructor.
  - intros i Hi HS. unfold seq_next. destruct (Nat.ltb_spec (S i) (b_psz b)); [auto|lia].
  - intros p. split; [|tauto]. intros C.
    destruct (existsb _ _) eqn:EX; [congruence|].
    apply (i_data _ _ _ _ H) in C. exfalso.
    apply In_nth_error in C. destruct C as [j Hj].
    assert (HJ : j < length (map fst l)) by (apply nth_error_Some; congruence). rewrite map_length in HJ.
    pose proof (i_len _ _ _ _ H).
    assert (TT : existsb (fun i => match b_map b i with Some q => p =? q | None => false end) (seq 0 (b_n b)) = true).
    { apply existsb_exists. exists j. split; [apply in_seq; lia|]. rewrite (i_map _ _ _ _ H), Hj. apply Nat.eqb_refl. }
    congruence.
Qed.

Lemma init_ok : forall n b, init n = Some b -> bi b [] [] 0 /\ b_n b = n /\ b_inf b = None.
Proof.
  intros n b. unfold init, clear. cbn [b_psz b_n b_cap b_map b_pcap b_data b_vsz b_vcap b_inf b_phys].
  destruct (Nat.eqb_spec (n * 2) 0); [discriminate|]. intros E. injection E as <-. split; [|auto].
  constructor; cbn [b_map b_nv b_n b_psz b_vsz b_vcap b_cap b_free b_next b_val b_data map app length hd fchain In]; auto; try lia.
  - intros j. destruct j; auto.
  - constructor.
  - intros i Hi HS. unfold seq_next. destruct (Nat.ltb_spec (S i) (n * 2)); [auto|lia].
  - intros p. split; [|tauto]. destruct (existsb _ _); congruence.
Qed.

(** Growth with a correct address map. *)
Lemma resize_ok : forall b l st k d, bi b l st k -> addr_ok b l ->
  exists st' k', bi (resize b d) l st' k' /\ addr_ok (resize b d) l /\ b_n b <= b_n (resize b d)
    /\ (0 < d -> length l < b_n (resize b d)) /\ b_inf (resize b d) = b_inf b.
Proof.
  intros b l st k d H HA. unfold resize, num_free. rewrite (i_nv _ _ _ _ H).
  pose proof (i_len _ _ _ _ H) as HL. pose proof (i_cap _ _ _ _ H) as HCp. pose proof (i_pos _ _ _ _ H).
  pose proof (i_vcap _ _ _ _ H) as VC. pose proof (i_vsz _ _ _ _ H) as VS.
  destruct (Nat.eqb_spec (b_n b - length l) 0).
  - pose proof (bi_count _ _ _ _ H) as HC. pose proof (i_k _ _ _ _ H) as HK.
    assert (st = []) by (destruct st; simpl in HC; [auto|lia]). subst st. simpl in HC.
    exists [], k. split; [|split; [exact HA|split; [simpl; lia|split; [simpl; lia|reflexivity]]]].
    constructor; cbn [b_map b_nv b_n b_psz b_vsz b_vcap b_cap b_free b_next b_val b_data hd fchain].
    + intros j. destruct (Nat.ltb_spec j (length l)).
      * destruct (nth_error (map fst l) j) eqn:E; [now rewrite (HA _ _ E)|].
        apply nth_error_None in E. rewrite map_length in E. lia.
      * apply (i_map _ _ _ _ H).
    + reflexivity.
    + lia.
    + lia.
    + reflexivity.
    + lia.
    + rewrite VC, VS. reflexivity.
    + unfold grow. destruct (Nat.leb_spec (b_cap b + d) (b_cap b)); lia.
    + apply (i_nd _ _ _ _ H).
    + apply (i_in _ _ _ _ H).
    + lia.
    + lia.
    + exact Logic.I.
    + intros i Hi HS. unfold seq_next. destruct (Nat.ltb_spec (S i) ((b_cap b + d) * 2)); [auto|lia].
    + apply (i_val _ _ _ _ H).
    + apply (i_data _ _ _ _ H).
    + apply (i_get _ _ _ _ H).
  - exists st, k. split; [auto|]. split; [auto|]. split; [lia|]. split; [lia|auto].
Qed.

Lemma push_inf_ok : forall b l st k x d, bi b l st k -> addr_ok b l -> b_inf b = Some d -> 0 < d ->
  exists b' f st' k', push_back b x = Some (b', f) /\ bi b' (l ++ [(f, x)]) st' k' /\ ~ In f (map fst l)
    /\ addr_ok b' (l ++ [(f, x)]) /\ b_inf b' = Some d /\ b_n b <= b_n b'.
Proof.
  intros b l st k x d H HA HI Hd. unfold push_back, pre_grow. rewrite HI.
  destruct (resize_ok b l st k d H HA) as [st1 [k1 [B [HA2 [HN [HL HI2]]]]]]. specialize (HL Hd).
  set (b2 := resize b d) in *. unfold num_free.
  destruct (Nat.eqb_spec (b_n b2 - b_nv b2) 0); [rewrite (i_nv _ _ _ _ B) in *; lia|].
  destruct (push_core _ _ _ _ x B HL) as [st' [k' [B' [F [G [P AD]]]]]].
  destruct (Nat.leb_spec (b_vsz b2) (b_free b2)); [rewrite (i_vsz _ _ _ _ B) in *; lia|].
  eexists _, _, st', k'. split; [reflexivity|]. split; [exact B'|]. split; [auto|]. split; [auto|].
  cbn [b_inf b_n]. rewrite HI2. auto.
Qed.
End INV.
