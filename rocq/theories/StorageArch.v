(** Saving an ArchData's lines to a storage and restoring them, for any storage that meets the laws of StorageProofs. *)
From Coq Require Import List NArith Arith Bool Lia.
From Verif Require Import LayoutModel LayoutProofs ArchDataModel ArchDataProofs ArchDataProps StorageModel StorageProofs.
Import ListNotations.
Open Scope N_scope.

(** The construction parameters of an ArchData. *)
Record cfg := mkCfg { c_k : N; c_total : N; c_fill : N; c_fsz : nat; c_free : bool }.
Record wfc (sh : overshift) (c : cfg) : Prop := mkWfc {
  wf_k : c_k c <= 30; wf_T : c_total c < 2 ^ 64; wf_M : c_total c mod 2 ^ c_k c = 0; wf_Z : fsz_ok (c_fsz c);
  wf_F : c_fill c < 2 ^ (8 * N.of_nat (c_fsz c)); wf_S : sh_ok sh (c_fsz c) (c_fill c) }.
Definition cL (c : cfg) : N := 2 ^ c_k c.
Definition cRI (c : cfg) := RI (c_k c) (c_total c) (c_fill c) (c_fsz c) (c_free c).
Definition ccontent (c : cfg) (m : smem) : N -> N := content (c_k c) (c_fill c) (c_fsz c) m.
Definition cfill (c : cfg) : N -> N := fill_at (c_k c) (c_fill c) (c_fsz c).
Definition keys (a : adata) : list N := map fst (a_lines a).
(** [AI c a f]: the ArchData was made with [c] and its byte at [b] is [f b]. *)
Record AI (c : cfg) (a : adata) (f : N -> N) : Prop := mkAI {
  ai_ri : exists m, cRI c a m /\ forall b, ccontent c m b = f b;
  ai_nodup : NoDup (keys a);
  ai_range : forall i, In i (keys a) -> i * cL c < c_total c }.

Lemma cLpos : forall c, 0 < cL c. Proof. intros. apply Lpos. Qed.
Lemma AI_ext : forall c a f g, AI c a f -> (forall b, f b = g b) -> AI c a g.
Proof. intros c a f g [[m [H1 H2]] H3 H4] E. constructor; auto. exists m. split; auto. intros. rewrite H2. apply E. Qed.

Lemma find_in : forall i x l, find_line i l = Some x -> In (i, x) l.
Proof.
  induction l as [|[j y] l IH]; cbn [find_line]; [discriminate|]. destruct (N.eqb_spec j i) as [->|]; [|intros; right; auto].
  intros H. injection H as ->. left. reflexivity.
Qed.
Lemma in_find : forall i x l, NoDup (map fst l) -> In (i, x) l -> find_line i l = Some x.
Proof.
  induction l as [|[j y] l IH]; cbn [find_line map fst]; intros ND H; [destruct H|].
  inversion ND as [|? ? N1 N2]; subst. destruct H as [E|H].
  - injection E as -> ->. rewrite N.eqb_refl. reflexivity.
  - destruct (N.eqb_spec j i) as [->|]; [|auto]. exfalso. apply N1. apply (in_map fst) in H. exact H.
Qed.
Lemma find_none_notin : forall i l, find_line i l = None <-> ~ In i (map fst l).
Proof.
  induction l as [|[j y] l IH]; cbn [find_line map fst]; [split; auto; intros _ []|].
  destruct (N.eqb_spec j i) as [->|]; split; intros H.
  - discriminate. - exfalso. apply H. left. reflexivity.
  - apply IH in H. intros [E|E]; [congruence|auto].
  - apply IH. intros E. apply H. right. exact E.
Qed.
Lemma set_keys : forall i x l, map fst (set_line i x l) = map fst l.
Proof.
  induction l as [|[j y] l IH]; cbn [set_line map fst]; [reflexivity|]. destruct (N.eqb_spec j i) as [->|]; cbn [map fst]; [reflexivity|].
  f_equal. exact IH.
Qed.

Section One.
  Variables (sh : overshift) (c : cfg).
  Hypothesis Wf : wfc sh c.
  Notation k := (c_k c). Notation total := (c_total c). Notation L := (2 ^ c_k c).

  Definition KI (a : adata) : Prop := NoDup (keys a) /\ forall i, In i (keys a) -> i * cL c < total.

  Lemma get_line_all : forall a m addr, cRI c a m -> KI a -> addr < total ->
    exists a' x, get_line sh a addr = Done (a', x) /\ cRI c a' m /\ KI a' /\ find_line (addr / L) (a_lines a') = Some x /\
      (forall i y, find_line i (a_lines a) = Some y -> find_line i (a_lines a') = Some y) /\
      (forall i y, find_line i (a_lines a') = Some y -> find_line i (a_lines a) = Some y \/ l_dirty y = true).
  Proof.
    intros a m addr R [K1 K2] HA. destruct Wf as [Hk HT HM HZ HF HS]. unfold cRI in *.
    pose proof (get_line_ok sh k total (c_fill c) (c_fsz c) (c_free c) Hk HT HM HZ HF HS a m addr R) as G.
    destruct (N.ltb_spec addr total) as [C|C]; [|lia]. destruct G as [a' [x [G1 [G2 G3]]]].
    exists a', x. split; [exact G1|]. split; [exact G2|].
    pose proof (ri_lsb _ _ _ _ _ a m R) as E1. pose proof (ri_size _ _ _ _ _ a m R) as E2.
    unfold get_line in G1. rewrite E1, E2, N.shiftr_div_pow2 in G1. destruct (N.ltb_spec addr total); [|lia]. cbn [negb] in G1.
    destruct (find_line (addr / L) (a_lines a)) as [y|] eqn:EF.
    - injection G1 as <- <-. split; [split; assumption|]. split; [exact EF|]. split; [auto|]. auto.
    - destruct (alloc_ok sh k total (c_fill c) (c_fsz c) (c_free c) Hk HT HM HZ HF HS a m addr R HA EF) as [d [A1 A2]].
      rewrite A1 in G1. cbn [with_lines a_lines] in G1. rewrite find_app_new in G1 by exact EF. injection G1 as <- <-.
      cbn [with_lines a_lines] in *. split; [split|split; [exact G3|split]].
      + unfold keys. cbn [with_lines a_lines]. rewrite map_app. cbn [map fst].
        apply find_none_notin in EF. clear - EF K1. unfold keys in K1. induction (map fst (a_lines a)) as [|z r IH]; cbn.
        * constructor; [intros []|constructor].
        * inversion K1 as [|? ? N1 N2]; subst. constructor.
          -- intros H. apply in_app_or in H. destruct H as [H|[H|[]]]; [auto|]. apply EF. left. congruence.
          -- apply IH; auto. intros H. apply EF. right. exact H.
      + unfold keys. cbn [with_lines a_lines]. rewrite map_app. cbn [map fst]. intros i Hi. apply in_app_or in Hi.
        destruct Hi as [Hi|[<-|[]]]; [apply K2; exact Hi|]. unfold cL. pose proof (idx_split k addr). lia.
      + intros i y H0. destruct (N.eq_dec (addr / L) i) as [E|E]; [subst; congruence|]. rewrite find_app_old by exact E. exact H0.
      + intros i y H0. destruct (N.eq_dec (addr / L) i) as [E|E].
        * subst i. rewrite find_app_new in H0 by exact EF. injection H0 as <-. right. reflexivity.
        * rewrite find_app_old in H0 by exact E. left. exact H0.
  Qed.

  Definition fwrite (f : N -> N) (addr : N) (buf : list N) : N -> N :=
    fun b => if (addr <=? b) && (b <? addr + N.of_nat (length buf)) then nth (N.to_nat (b - addr)) buf 0 else f b.
  (** Every line whose bytes may differ from [g] is dirty. *)
  Definition tracked (a : adata) (f g : N -> N) : Prop :=
    forall b, f b <> g b -> exists x, find_line (b / L) (a_lines a) = Some x /\ l_dirty x = true.

  Lemma write_all : forall a f g addr buf, AI c a f -> tracked a f g -> addr + N.of_nat (length buf) < 2 ^ 64 ->
    let '(a', r) := mem_write sh a addr buf in
    let f' := if legal k total addr (N.of_nat (length buf)) then fwrite f addr buf else f in
    r = (if legal k total addr (N.of_nat (length buf)) then Done tt else Asserted) /\ AI c a' f' /\ tracked a' f' g.
  Proof.
    intros a f g addr buf [[m [R E]] K1 K2] TR HB. unfold cRI in R.
    pose proof Wf as [Hk HT HM HZ HF HS].
    pose proof (write_ok sh k total (c_fill c) (c_fsz c) (c_free c) Hk HT HM HZ HF HS a m addr buf R HB) as Wk.
    assert (LG : addr < total -> exists a1 x, get_line sh a addr = Done (a1, x) /\ KI a1 /\
      find_line (addr / L) (a_lines a1) = Some x /\
      (forall i y, find_line i (a_lines a) = Some y -> find_line i (a_lines a1) = Some y)).
    { intros C. destruct (get_line_all a m addr R (conj K1 K2) C) as [a1 [x [G1 [G2 [G3 [G4 [G5 G6]]]]]]]. eauto 8. }
    destruct (legal k total addr (N.of_nat (length buf))) eqn:EL; destruct Wk as [a' [W1 W2]].
    - rewrite W1. split; [reflexivity|]. unfold legal in EL. apply andb_prop in EL. destruct EL as [EL1 EL2].
      apply N.ltb_lt in EL1. apply N.leb_le in EL2. destruct (LG EL1) as [a1 [x [G1 [[G2 G3] [G4 G5]]]]].
      unfold mem_write in W1. rewrite G1 in W1. rewrite (ri_lsb _ _ _ _ _ a m R), N.shiftr_div_pow2 in W1.
      destruct (line_write _ x _ buf) as [x'| | | |] eqn:EW; try discriminate. injection W1 as <-.
      assert (DX : l_dirty x' = true).
      { unfold line_write in EW. destruct (_ <? _); [discriminate|]. destruct (_ <? _); [discriminate|]. injection EW as <-. reflexivity. }
      split.
      + constructor.
        * exists (swrite m addr buf). split; [exact W2|]. intros b. unfold ccontent, content, swrite, fwrite.
          destruct ((addr <=? b) && (b <? addr + N.of_nat (length buf))); [reflexivity|]. apply E.
        * unfold keys in *. cbn [with_lines a_lines]. rewrite set_keys. exact G2.
        * unfold keys in *. cbn [with_lines a_lines]. rewrite set_keys. exact G3.
      + intros b Hb. cbn [with_lines a_lines]. unfold fwrite in Hb.
        destruct (N.eq_dec (addr / L) (b / L)) as [Q|Q].
        * rewrite <- Q. rewrite find_set_eq by congruence. eauto.
        * rewrite find_set_ne by exact Q.
          destruct (N.leb_spec addr b) as [A|A]; cbn [andb] in Hb;
            [destruct (N.ltb_spec b (addr + N.of_nat (length buf))) as [B|B]|].
          -- exfalso. apply Q. pose proof (idx_split k addr) as I1. pose proof (idx_split k b) as I2.
             pose proof (modL k addr). pose proof (modL k b). pose proof (Lpos k) as LP.
             assert (J1 : b / L * L < (addr / L + 1) * L) by lia. assert (J2 : addr / L * L < (b / L + 1) * L) by lia.
             apply N.mul_lt_mono_pos_r in J1; [|exact LP]. apply N.mul_lt_mono_pos_r in J2; [|exact LP]. lia.
          -- destruct (TR b Hb) as [y [Y1 Y2]]. exists y. auto.
          -- destruct (TR b Hb) as [y [Y1 Y2]]. exists y. auto.
    - rewrite W1. split; [reflexivity|]. unfold mem_write in W1.
      destruct (N.ltb_spec addr total) as [C|C].
      + destruct (LG C) as [a1 [x [G1 [[G2 G3] [G4 G5]]]]]. rewrite G1 in W1.
        destruct (line_write _ x _ buf) as [x'| | | |] eqn:EW; try discriminate. injection W1 as <-.
        split; [constructor; auto; exists m; split; auto|]. intros b Hb. destruct (TR b Hb) as [y [Y1 Y2]]. eauto.
      + unfold get_line in W1. rewrite (ri_size _ _ _ _ _ a m R) in W1. destruct (N.ltb_spec addr total); [lia|].
        cbn [negb] in W1. injection W1 as <-. split; [constructor; auto; exists m; split; auto|]. exact TR.
  Qed.

  Lemma clean_all : forall a f, AI c a f -> exists a', mem_clean sh a = (a', Done tt) /\ AI c a' (cfill c).
  Proof.
    intros a f [[m [R E]] K1 K2]. pose proof Wf as [Hk HT HM HZ HF HS].
    destruct (clean_ok sh k total (c_fill c) (c_fsz c) (c_free c) Hk HT HM HZ HF HS a m R) as [a' [C1 C2]].
    exists a'. split; [exact C1|]. assert (KK : keys a' = [] \/ keys a' = keys a).
    { unfold mem_clean in C1. destruct (a_free a); [injection C1 as <-; left; reflexivity|].
      destruct (a_lines a) as [|p r] eqn:EL; [injection C1 as <-; right; reflexivity|].
      destruct (fill_line sh a); try discriminate. injection C1 as <-. right. unfold keys. rewrite EL.
      cbn [with_lines a_lines map fst]. f_equal. rewrite map_map. reflexivity. }
    constructor.
    - exists (fun _ => None). split; [exact C2|]. reflexivity.
    - destruct KK as [-> | ->]; [constructor|assumption].
    - destruct KK as [-> | ->]; [intros i []|assumption].
  Qed.

  Lemma make_all : forall a, mem_make k total (c_fill c) (c_fsz c) (c_free c) = Done a -> AI c a (cfill c).
  Proof.
    intros a H. pose proof (make_ok _ _ _ _ _ a H) as R. constructor.
    - exists (fun _ => None). split; [exact R|]. reflexivity.
    - unfold mem_make in H. destruct (negb _); [discriminate|]. destruct (negb _); [discriminate|].
      destruct (line_mask L); try discriminate. destruct ((total =? 0) || _); [discriminate|]. injection H as <-. constructor.
    - unfold mem_make in H. destruct (negb _); [discriminate|]. destruct (negb _); [discriminate|].
      destruct (line_mask L); try discriminate. destruct ((total =? 0) || _); [discriminate|]. injection H as <-. intros i [].
  Qed.

  (** A legal read returns the bytes. *)
  Lemma read_all : forall a f addr size, AI c a f -> addr + size < 2 ^ 64 -> legal k total addr size = true ->
    mem_read sh a addr size = Done (map (fun i => f (addr + N.of_nat i)) (seq 0 (N.to_nat size))).
  Proof.
    intros a f addr size [[m [R E]] _ _] HB HL. pose proof Wf as [Hk HT HM HZ HF HS].
    pose proof (read_ok sh k total (c_fill c) (c_fsz c) (c_free c) Hk HT HM HZ HF HS a m addr size R HB) as G.
    rewrite HL in G. rewrite G. f_equal. unfold sread. apply map_ext. intros i. apply E.
  Qed.

  (** What a line's record does to the contents. *)
  Definition put_rec (f : N -> N) (r : rec) : N -> N :=
    fun b => if b / L =? fst r then nth (N.to_nat (b mod L)) (snd r) 0 else f b.
  Definition put_recs (f : N -> N) (l : list rec) : N -> N := fold_left put_rec l f.
  Definition rec_ok (r : rec) : Prop := length (snd r) = N.to_nat L /\ fst r * L < total.

  Lemma put_recs_out : forall l f b, ~ In (b / L) (map fst l) -> put_recs f l b = f b.
  Proof.
    unfold put_recs. induction l as [|[i d] l IH]; intros f b H; cbn [fold_left]; [reflexivity|].
    rewrite IH by (intros C; apply H; right; exact C). unfold put_rec. cbn [fst].
    destruct (N.eqb_spec (b / L) i) as [E|]; [|reflexivity]. exfalso. apply H. left. symmetry. exact E.
  Qed.
  Lemma put_recs_in : forall l f b d, NoDup (map fst l) -> In (b / L, d) l -> put_recs f l b = nth (N.to_nat (b mod L)) d 0.
  Proof.
    unfold put_recs. induction l as [|[i e] l IH]; intros f b d ND H; [destruct H|].
    cbn [map fst] in ND. inversion ND as [|? ? N1 N2]; subst. cbn [fold_left]. destruct H as [E|H].
    - injection E as -> ->. change (put_recs (put_rec f (b / L, d)) l b = nth (N.to_nat (b mod L)) d 0).
      rewrite put_recs_out by exact N1. unfold put_rec. cbn [fst snd]. rewrite N.eqb_refl. reflexivity.
    - apply IH; assumption.
  Qed.
  Lemma put_recs_ext : forall l f g b, (forall b, f b = g b) -> put_recs f l b = put_recs g l b.
  Proof.
    unfold put_recs. induction l as [|[i e] l IH]; intros f g b H; cbn [fold_left]; [apply H|].
    apply IH. intros b'. unfold put_rec. destruct (_ =? _); auto.
  Qed.

  (** Overwriting a line. *)
  Lemma set_all : forall a f i x d, AI c a f -> find_line i (a_lines a) = Some x -> length d = N.to_nat L ->
    AI c (with_lines a (set_line i (mkLine d false) (a_lines a))) (put_rec f (i, d)).
  Proof.
    intros a f i x d [[m [R E]] K1 K2] HF HD. pose proof R as R'. destruct R as [R1 R2 R3 R4 R5 R6 R7].
    pose proof (Lpos k) as LP. constructor.
    - exists (fun b => if b / L =? i then Some (nth (N.to_nat (b mod L)) d 0) else m b). split.
      + constructor; cbn [with_lines a_lsb a_size a_fill a_fsz a_free a_lines]; auto.
        * intros i' y Hy. destruct (N.eq_dec i i') as [<-|Ne].
          -- rewrite find_set_eq in Hy by congruence. injection Hy as <-. cbn [l_data]. split; [exact HD|].
             intros j Hj. unfold content. rewrite N.div_add_l by lia. rewrite (N.div_small j) by exact Hj. rewrite N.add_0_r, N.eqb_refl.
             f_equal. f_equal. rewrite N.add_comm, N.mod_add by lia. symmetry. apply N.mod_small. exact Hj.
          -- rewrite find_set_ne in Hy by exact Ne. destruct (R6 _ _ Hy) as [Y1 Y2]. split; [exact Y1|].
             intros j Hj. rewrite (Y2 j Hj). unfold content. rewrite N.div_add_l by lia. rewrite (N.div_small j) by exact Hj. rewrite N.add_0_r.
             destruct (N.eqb_spec i' i); [congruence|]. reflexivity.
        * intros b Hb. destruct (N.eqb_spec (b / L) i) as [Q|Q].
          -- rewrite Q in Hb. rewrite find_set_eq in Hb by congruence. discriminate.
          -- rewrite find_set_ne in Hb by congruence. apply R7. exact Hb.
      + intros b. unfold ccontent, content, put_rec. cbn [fst snd]. destruct (b / L =? i); [reflexivity|]. apply E.
    - unfold keys. cbn [with_lines a_lines]. rewrite set_keys. exact K1.
    - unfold keys. cbn [with_lines a_lines]. rewrite set_keys. exact K2.
  Qed.

  Lemma line_addr : forall i, i * L < total -> w64 (i * L) = i * L /\ i * L / L = i /\ N.shiftr (i * L) k = i.
  Proof.
    intros i H. pose proof (wf_T sh c Wf) as HT. change (2 ^ 64) with 18446744073709551616 in HT.
    pose proof (Lpos k) as LP. split; [apply w64_small; lia|]. rewrite N.shiftr_div_pow2. rewrite N.div_mul by lia. auto.
  Qed.
  Lemma idx_lt : forall i, i * L < total -> i < bad_idx.
  Proof.
    intros i H. pose proof (wf_T sh c Wf) as HT. change (2 ^ 64) with 18446744073709551616 in HT. pose proof (Lpos k) as LP.
    assert (i * 1 <= i * L) by (apply N.mul_le_mono_l; lia).
    destruct (N.eq_dec (c_k c) 0) as [E|E].
    - assert (L = 1) by (rewrite E; reflexivity). unfold bad_idx. lia.
    - assert (2 ^ 1 <= L) by (apply N.pow_le_mono_r; lia). assert (i * 2 <= i * L) by (apply N.mul_le_mono_l; change (2 ^ 1) with 2 in *; lia).
      unfold bad_idx. lia.
  Qed.

  Context {T : Type} (st : storage T) (lim : list (list rec) -> Prop) (W : T -> list (list rec) -> list rec -> Prop)
    (R : T -> list (list rec) -> list (list rec) -> Prop).
  Hypothesis Lw : laws st lim W R.

  Lemma restore_loop_ok : forall l fuel s alls rest a f, R s alls (l :: rest) -> Forall rec_ok l -> AI c a f -> (length l < fuel)%nat ->
    exists a' s', restore_loop st sh fuel s a = Done (a', s') /\ R s' alls rest /\ AI c a' (put_recs f l).
  Proof.
    induction l as [|[i d] l IH]; intros fuel s alls rest a f HR HO HA HF; (destruct fuel as [|fuel]; [cbn in HF; lia|]); cbn [restore_loop].
    - destruct (r_end _ _ _ _ Lw _ _ _ HR) as [s' [N1 N2]]. rewrite N1. cbn [obind]. change (bad_idx =? bad_idx) with true. cbn match. eauto.
    - apply Forall_cons_iff in HO. destruct HO as [[O1 O2] HO]. cbn [fst snd] in *.
      pose proof (idx_lt i O2) as IB. destruct (line_addr i O2) as [LA1 [LA2 LA3]].
      assert (LB : L < 2 ^ 32). { change (2 ^ 32) with 4294967296. pose proof (Lle k (wf_k sh c Wf)). lia. }
      destruct (r_rec _ _ _ _ Lw s alls (i, d) l rest HR IB) as [s1 [s2 [N1 [N2 N3]]]]; [cbn [snd]; rewrite O1, N2Nat.id; exact LB|].
      cbn [fst snd] in *. rewrite N1. cbn [obind]. destruct (N.eqb_spec i bad_idx); [lia|].
      pose proof HA as HA'. destruct HA as [[m [RI1 E]] K1 K2].
      unfold a_L. rewrite (ri_lsb _ _ _ _ _ a m RI1), LA1, LA3.
      destruct (get_line_all a m (i * L) RI1 (conj K1 K2) O2) as [a1 [x [G1 [G2 [[G3 G3'] [G4 [G5 G6]]]]]]].
      rewrite G1. cbn [obind]. rewrite LA2 in G4. rewrite O1, N2Nat.id in N2. rewrite N2. cbn [obind].
      assert (A1 : AI c a1 f) by (constructor; auto; exists m; auto).
      apply (IH fuel s2 alls rest _ _ N3 HO (set_all a1 f i x d A1 G4 O1)). cbn [length] in HF. lia.
  Qed.

  Lemma ad_restore_ok : forall l fuel s alls rest a f, R s alls (l :: rest) -> Forall rec_ok l -> AI c a f -> (length l < fuel)%nat ->
    exists a' s', ad_restore st sh fuel s a = Done (a', s') /\ R s' alls rest /\ AI c a' (put_recs f l).
  Proof. intros. unfold ad_restore. rewrite (r_good _ _ _ _ Lw _ _ _ H). apply restore_loop_ok; assumption. Qed.
  Lemma ad_restore_all_ok : forall l fuel s alls rest a f, R s alls (l :: rest) -> Forall rec_ok l -> AI c a f -> (length l < fuel)%nat ->
    exists a' s', ad_restore_all st sh fuel s a = Done (a', s') /\ R s' alls rest /\ AI c a' (put_recs (cfill c) l).
  Proof.
    intros l fuel s alls rest a f HR HO HA HF. unfold ad_restore_all. destruct (clean_all a f HA) as [a' [C1 C2]]. rewrite C1.
    apply ad_restore_ok; assumption.
  Qed.

  (** The records a save writes. *)
  Definition saved (all : bool) (l : list (N * line)) : list rec :=
    map (fun p => (fst p, l_data (snd p))) (filter (fun p => all || l_dirty (snd p)) l).
  Definition undirty (all : bool) (l : list (N * line)) : list (N * line) :=
    map (fun p => (fst p, mkLine (l_data (snd p)) (if all || l_dirty (snd p) then false else l_dirty (snd p)))) l.
  Lemma saved_key : forall all l i, In i (map fst (saved all l)) -> In i (map fst l).
  Proof.
    intros all l i H. unfold saved in H. rewrite map_map in H. cbn [fst] in H. apply in_map_iff in H. destruct H as [p [<- H]].
    apply filter_In in H. apply in_map. tauto.
  Qed.
  Lemma saved_nodup : forall all l, NoDup (map fst l) -> NoDup (map fst (saved all l)).
  Proof.
    induction l as [|[i x] l IH]; intros ND; [constructor|]. cbn [map fst] in ND. inversion ND as [|? ? N1 N2]; subst.
    unfold saved in *. cbn [filter snd]. destruct (all || l_dirty x); cbn [map fst]; [|auto].
    constructor; [|auto]. intros H. apply N1. apply (saved_key all). exact H.
  Qed.

  Lemma save_lines_ok : forall all l s segs cur, W s segs cur -> NoDup (map fst cur ++ map fst l) ->
    (forall i x, In (i, x) l -> i < bad_idx /\ N.of_nat (length (l_data x)) < 2 ^ 32) ->
    exists s', save_lines st all s l = Done (undirty all l, s') /\ W s' segs (cur ++ saved all l).
  Proof.
    intros all. induction l as [|[i x] l IH]; intros s segs cur HW ND HB; cbn [save_lines].
    { exists s. split; [reflexivity|]. unfold saved. cbn. rewrite app_nil_r. exact HW. }
    cbn [map fst] in ND. unfold undirty, saved. cbn [filter map fst snd].
    assert (ND2 : NoDup (map fst cur ++ map fst l)) by (apply NoDup_remove_1 in ND; exact ND).
    assert (HB2 : forall j y, In (j, y) l -> j < bad_idx /\ N.of_nat (length (l_data y)) < 2 ^ 32) by (intros; apply HB; right; assumption).
    destruct (all || l_dirty x) eqn:EA.
    - destruct (HB i x (or_introl eq_refl)) as [B1 B2].
      destruct (w_rec _ _ _ _ Lw s segs cur (i, l_data x) HW) as [s1 [s2 [E1 [E2 E3]]]].
      { split; [exact B1|]. split; [exact B2|]. intros q Hq Eq. cbn [fst] in Eq. apply NoDup_remove_2 in ND. apply ND.
        apply in_or_app. left. rewrite <- Eq. apply in_map. exact Hq. }
      cbn [fst snd] in *. rewrite E1. cbn [obind]. rewrite E2. cbn [obind].
      destruct (IH s2 segs (cur ++ [(i, l_data x)]) E3) as [s3 [F1 F2]].
      { rewrite map_app. cbn [map fst]. rewrite <- app_assoc. exact ND. } { exact HB2. }
      rewrite F1. cbn [obind]. exists s3. split; [reflexivity|]. rewrite <- app_assoc in F2. exact F2.
    - destruct (IH s segs cur HW ND2 HB2) as [s3 [F1 F2]]. rewrite F1. cbn [obind]. exists s3. split; [|exact F2].
      destruct x as [xd xb]. reflexivity.
  Qed.

  Lemma lines_ok : forall a f, AI c a f -> forall i x, In (i, x) (a_lines a) ->
    rec_ok (i, l_data x) /\ forall j, j < L -> nth (N.to_nat j) (l_data x) 0 = f (i * L + j).
  Proof.
    intros a f [[m [RI1 E]] K1 K2] i x H. pose proof (in_find i x _ K1 H) as F.
    destruct (ri_line _ _ _ _ _ a m RI1 i x F) as [X1 X2]. split.
    - split; cbn [fst snd]; [exact X1|]. apply K2. unfold keys. apply (in_map fst) in H. exact H.
    - intros j Hj. rewrite (X2 j Hj). apply E.
  Qed.

  Lemma undirty_find : forall all i l, find_line i (undirty all l) =
    option_map (fun y => mkLine (l_data y) (if all || l_dirty y then false else l_dirty y)) (find_line i l).
  Proof. intros all i l. apply (find_map (fun y => mkLine (l_data y) (if all || l_dirty y then false else l_dirty y))). Qed.

  Lemma ad_save_ok : forall all a f s segs, AI c a f -> W s segs [] ->
    exists a' s', ad_save st all s a = Done (a', s') /\ W s' (segs ++ [saved all (a_lines a)]) [] /\ AI c a' f /\
      Forall rec_ok (saved all (a_lines a)) /\
      (all = true -> forall b, put_recs (cfill c) (saved all (a_lines a)) b = f b) /\
      (forall g, tracked a f g -> forall b, put_recs g (saved all (a_lines a)) b = f b).
  Proof.
    intros all a f s segs HA HW. unfold ad_save. rewrite (w_good _ _ _ _ Lw _ _ _ HW).
    pose proof (lines_ok a f HA) as LO. pose proof (ai_nodup _ _ _ HA) as ND.
    assert (LB : L < 2 ^ 32). { change (2 ^ 32) with 4294967296. pose proof (Lle k (wf_k sh c Wf)). lia. }
    destruct (save_lines_ok all (a_lines a) s segs [] HW) as [s1 [E1 E2]].
    { exact ND. }
    { intros i x H. destruct (LO i x H) as [[O1 O2] _]. cbn [fst snd] in *. split; [apply idx_lt; exact O2|].
      rewrite O1, N2Nat.id. exact LB. }
    rewrite E1. cbn [obind]. destruct (w_end _ _ _ _ Lw _ _ _ E2) as [s2 [F1 F2]]. rewrite F1. cbn [obind].
    eexists _, _. split; [reflexivity|]. split; [exact F2|].
    assert (IN : forall b d, In (b / L, d) (saved all (a_lines a)) -> nth (N.to_nat (b mod L)) d 0 = f b).
    { intros b d H. unfold saved in H. apply in_map_iff in H. destruct H as [[i x] [Q H]]. cbn [fst snd] in Q. injection Q as -> <-.
      apply filter_In in H. destruct H as [H _]. destruct (LO _ _ H) as [_ X]. rewrite (X (b mod L)) by apply modL.
      f_equal. symmetry. apply idx_split. }
    assert (FD : forall b, (exists x, find_line (b / L) (a_lines a) = Some x /\ (all || l_dirty x = true)) ->
       In (b / L) (map fst (saved all (a_lines a)))).
    { intros b [x [X1 X2]]. apply find_in in X1. unfold saved. rewrite map_map. cbn [fst]. apply in_map_iff. exists (b / L, x).
      split; [reflexivity|]. apply filter_In. auto. }
    assert (PUT : forall g b, In (b / L) (map fst (saved all (a_lines a))) -> put_recs g (saved all (a_lines a)) b = f b).
    { intros g b H. apply in_map_iff in H. destruct H as [[i d] [Q H]]. cbn [fst] in Q. subst i.
      rewrite (put_recs_in _ g b d (saved_nodup all _ ND) H). apply IN. exact H. }
    assert (DEC : forall b, In (b / L) (map fst (saved all (a_lines a))) \/ ~ In (b / L) (map fst (saved all (a_lines a)))).
    { intros b. destruct (in_dec N.eq_dec (b / L) (map fst (saved all (a_lines a)))); auto. }
    split; [|split; [|split]].
    - destruct HA as [[m [RI1 E]] K1 K2]. constructor.
      + exists m. split; [|exact E]. destruct RI1 as [R1 R2 R3 R4 R5 R6 R7].
        constructor; cbn [with_lines a_lsb a_size a_fill a_fsz a_free a_lines]; auto.
        * intros i x H. rewrite undirty_find in H. destruct (find_line i (a_lines a)) as [y|] eqn:EY; [|discriminate].
          injection H as <-. cbn [l_data]. apply (R6 i y EY).
        * intros b H. rewrite undirty_find in H. apply R7. destruct (find_line (b / L) (a_lines a)); [discriminate|reflexivity].
      + unfold keys. cbn [with_lines a_lines]. unfold undirty. rewrite map_map. exact K1.
      + unfold keys. cbn [with_lines a_lines]. unfold undirty. rewrite map_map. exact K2.
    - apply Forall_forall. intros [i d] H. unfold saved in H. apply in_map_iff in H. destruct H as [[j x] [Q H]]. cbn [fst snd] in Q.
      injection Q as -> <-. apply filter_In in H. apply (LO i x). tauto.
    - intros EA b. destruct (DEC b) as [H|H]; [apply PUT; exact H|]. rewrite put_recs_out by exact H.
      destruct HA as [[m [RI1 E]] K1 K2]. rewrite <- E. unfold ccontent, content.
      rewrite (ri_none _ _ _ _ _ a m RI1 b); [reflexivity|].
      destruct (find_line (b / L) (a_lines a)) as [x|] eqn:EX; [|reflexivity]. exfalso. apply H. apply FD. exists x. rewrite EA. auto.
    - intros g TR b. destruct (DEC b) as [H|H]; [apply PUT; exact H|]. rewrite put_recs_out by exact H.
      destruct (N.eq_dec (f b) (g b)) as [Q|Q]; [auto|]. exfalso. apply H. apply FD. destruct (TR b Q) as [x [X1 X2]].
      exists x. split; [exact X1|]. rewrite X2. apply orb_true_r.
  Qed.
End One.
