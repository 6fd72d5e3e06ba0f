(** Lemmas for C42. *)
From Coq Require Import List NArith Arith Bool Lia.
From Verif Require Import LayoutModel LayoutProofs ArchDataModel ArchDataProofs ArchDataProps BitArrayProps CachedMemModel.
Import ListNotations.
Open Scope N_scope.

(** A memory with bytes stored from an address on. *)
Definition over (f : N -> N) (addr : N) (buf : list N) (b : N) : N :=
  if (addr <=? b) && (b <? addr + N.of_nat (length buf)) then nth (N.to_nat (b - addr)) buf 0 else f b.
Lemma over_in : forall f addr buf b, addr <= b -> b < addr + N.of_nat (length buf) -> over f addr buf b = nth (N.to_nat (b - addr)) buf 0.
Proof. intros. unfold over. destruct (N.leb_spec addr b); [|lia]. destruct (N.ltb_spec b (addr + N.of_nat (length buf))); [reflexivity|lia]. Qed.
Lemma over_out : forall f addr buf b, b < addr \/ addr + N.of_nat (length buf) <= b -> over f addr buf b = f b.
Proof. intros. unfold over. destruct (N.leb_spec addr b); [|reflexivity]. destruct (N.ltb_spec b (addr + N.of_nat (length buf))); [lia|reflexivity]. Qed.
Lemma over_ext : forall f g addr buf, (forall b, f b = g b) -> forall b, over f addr buf b = over g addr buf b.
Proof. intros f g addr buf H b. unfold over. rewrite H. reflexivity. Qed.
Lemma put_over : forall f addr buf b, put f addr buf b = over f addr buf b.
Proof. reflexivity. Qed.
Lemma over_dec : forall addr (buf : list N) b, (addr <= b /\ b < addr + N.of_nat (length buf)) \/ (b < addr \/ addr + N.of_nat (length buf) <= b).
Proof. intros. lia. Qed.

(** The view through outstanding writes, given oldest first as address and bytes. *)
Fixpoint view (f : N -> N) (out : list (N * list N)) : N -> N :=
  match out with [] => f | (addr, buf) :: r => view (over f addr buf) r end.
Lemma view_ext : forall out f g, (forall b, f b = g b) -> forall b, view f out b = view g out b.
Proof. induction out as [|[addr buf] r IH]; intros f g H b; cbn [view]; [apply H|]. apply IH. intros b'. apply over_ext. exact H. Qed.
Lemma view_app : forall a b f, view f (a ++ b) = view (view f a) b.
Proof. induction a as [|[addr buf] r IH]; intros b f; cbn; [reflexivity|]. apply IH. Qed.

(** The bytes from an address on. *)
Definition bytes_of (f : N -> N) (addr size : N) : list N := map (fun i => f (addr + N.of_nat i)) (seq 0 (N.to_nat size)).
Lemma bytes_nth : forall f addr size n, (n < N.to_nat size)%nat -> nth n (bytes_of f addr size) 0 = f (addr + N.of_nat n).
Proof. intros. unfold bytes_of. apply (map_seq_nth (fun i => f (addr + N.of_nat i))). assumption. Qed.
Lemma bytes_len : forall f addr size, length (bytes_of f addr size) = N.to_nat size.
Proof. intros. unfold bytes_of. rewrite map_length, seq_length. reflexivity. Qed.
Lemma bytes_app : forall f addr n m, bytes_of f addr (n + m) = bytes_of f addr n ++ bytes_of f (addr + n) m.
Proof.
  intros. apply nth_ext with 0 0; [rewrite app_length, !bytes_len; lia|].
  rewrite bytes_len. intros i Hi. rewrite bytes_nth by lia. destruct (Nat.lt_ge_cases i (N.to_nat n)).
  - rewrite app_nth1 by (rewrite bytes_len; lia). rewrite bytes_nth by lia. reflexivity.
  - rewrite app_nth2 by (rewrite bytes_len; lia). rewrite bytes_len, bytes_nth by lia. f_equal. lia.
Qed.
Lemma bytes_ext : forall f g addr size, (forall b, addr <= b -> b < addr + size -> f b = g b) -> bytes_of f addr size = bytes_of g addr size.
Proof. intros f g addr size H. apply nth_ext with 0 0; [rewrite !bytes_len; reflexivity|]. rewrite bytes_len. intros i Hi. rewrite !bytes_nth by exact Hi. apply H; lia. Qed.

(** The byte a line holds, if there is one. *)
Definition lb (a : adata) (b : N) : option N :=
  match find_line (b / a_L a) (a_lines a) with Some x => Some (nth (N.to_nat (b mod a_L a)) (l_data x) 0) | None => None end.

Section CM.
  Variables (k total : N).
  Hypothesis Hk : k <= 30.
  Hypothesis HT : total < 2 ^ 64.
  Hypothesis HM : total mod 2 ^ k = 0.
  Notation L := (2 ^ k).
  Notation RI' := (RI k total 0 1 true).
  Lemma f1 : fsz_ok 1. Proof. unfold fsz_ok. auto. Qed.
  Lemma f0 : 0 < 2 ^ (8 * N.of_nat 1). Proof. reflexivity. Qed.
  Lemma fs : sh_ok nosh 1 0. Proof. clear. left. lia. Qed.
  Definition W (a : adata) : Prop := exists m, RI' a m.
  Lemma W_lsb : forall a, W a -> a_lsb a = k. Proof. intros a [m R]. apply R. Qed.
  Lemma W_size : forall a, W a -> a_size a = total. Proof. intros a [m R]. apply R. Qed.
  Lemma W_L : forall a, W a -> a_L a = L. Proof. intros a H. unfold a_L. rewrite (W_lsb a H). reflexivity. Qed.

  Lemma lb_content : forall a m b v, RI' a m -> lb a b = Some v -> v = content k 0 1 m b.
  Proof.
    intros a m b v R H. assert (Wa : W a) by (exists m; exact R). unfold lb in H. rewrite (W_L a Wa) in H.
    destruct (find_line (b / L) (a_lines a)) as [x|] eqn:E; [|discriminate]. injection H as <-.
    destruct (ri_line _ _ _ _ _ _ _ R _ _ E) as [_ H2]. rewrite H2 by (apply modL). f_equal.
    rewrite <- (idx_split k b). reflexivity.
  Qed.
  Lemma legal_end : forall addr size, legal k total addr size = true -> addr + size <= total /\ addr < total /\ addr mod L + size <= L.
  Proof.
    clear Hk HT. intros addr size H. unfold legal in H. apply andb_prop in H. destruct H as [H1 H2].
    apply N.ltb_lt in H1. apply N.leb_le in H2. split; [|split; assumption].
    pose proof (idx_split k addr) as IA. pose proof (Lpos k) as LP.
    assert (TE : addr / L * L + L <= total).
    { pose proof (N.div_mod total L ltac:(lia)) as DT. rewrite HM, N.add_0_r in DT.
      assert (X : addr / L < total / L) by (apply N.mul_lt_mono_pos_r with L; [exact LP|]; lia).
      assert (Y : (addr / L + 1) * L <= total / L * L) by (apply N.mul_le_mono_r; lia). lia. }
    lia.
  Qed.
  Lemma same_block : forall addr size b, addr mod L + size <= L -> addr <= b -> b < addr + size -> b / L = addr / L.
  Proof.
    clear Hk HT HM. intros addr size b H1 H2 H3. pose proof (idx_split k addr) as IA. pose proof (Lpos k) as LP.
    symmetry. apply N.div_unique with (b - addr / L * L); lia.
  Qed.
  Lemma lb_block : forall a b b', b / a_L a = b' / a_L a -> (lb a b = None <-> lb a b' = None).
  Proof. intros a b b' E. unfold lb. rewrite E. destruct (find_line _ _); split; congruence. Qed.

  Lemma read_present : forall a addr size, W a -> legal k total addr size = true -> lb a addr <> None ->
    mem_read nosh a addr size = Done (bytes_of (fun b => match lb a b with Some v => v | None => 0 end) addr size).
  Proof.
    intros a addr size [m R] HL HP. pose proof (legal_end _ _ HL) as [E1 [E2 E3]].
    assert (HB : addr + size < 2 ^ 64) by lia.
    pose proof (read_ok nosh k total 0 1 true Hk HT HM f1 f0 fs a m addr size R HB) as Q.
    rewrite HL in Q. rewrite Q. f_equal. change (sread k 0 1 m addr size) with (bytes_of (content k 0 1 m) addr size).
    apply bytes_ext. intros b B1 B2. assert (Wa : W a) by (exists m; exact R).
    assert (NB : lb a b <> None). { intros X. apply HP. apply (lb_block a addr b); [|exact X]. rewrite (W_L a Wa). symmetry. apply (same_block addr size); assumption. }
    destruct (lb a b) as [v|] eqn:EV; [|congruence]. symmetry. apply (lb_content a m b v R EV).
  Qed.

  Lemma write_present : forall a addr buf, W a -> legal k total addr (N.of_nat (length buf)) = true -> lb a addr <> None ->
    exists a', mem_write nosh a addr buf = (a', Done tt) /\ W a' /\ a_lsb a' = a_lsb a /\
      (forall b, lb a b = None <-> lb a' b = None) /\
      (forall b v v', lb a b = Some v -> lb a' b = Some v' -> v' = over (fun _ => v) addr buf b).
  Proof.
    intros a addr buf Wa HL HP. pose proof (legal_end _ _ HL) as [E1 [E2 E3]]. pose proof Wa as [m R].
    assert (HB : addr + N.of_nat (length buf) < 2 ^ 64) by lia.
    pose proof (write_ok nosh k total 0 1 true Hk HT HM f1 f0 fs a m addr buf R HB) as Q. rewrite HL in Q.
    destruct Q as [a' [Q1 Q2]]. exists a'. split; [exact Q1|]. assert (Wa' : W a') by (eexists; exact Q2).
    split; [exact Wa'|]. split; [rewrite (W_lsb a Wa), (W_lsb a' Wa'); reflexivity|].
    assert (HPres : forall b, lb a b = None <-> lb a' b = None).
    { intros b. unfold mem_write in Q1. unfold get_line in Q1. rewrite (W_size a Wa), (W_lsb a Wa), N.shiftr_div_pow2 in Q1.
      destruct (N.ltb_spec addr total); [|lia]. cbn [negb] in Q1. unfold lb in HP. rewrite (W_L a Wa) in HP.
      destruct (find_line (addr / L) (a_lines a)) as [x|] eqn:EX; [|congruence].
      destruct (line_write _ _ _ _) as [x'| | | |]; try discriminate. injection Q1 as <-.
      unfold lb. rewrite (W_L a Wa), (W_L _ Wa'). cbn [with_lines a_lines]. destruct (N.eq_dec (addr / L) (b / L)) as [E|Ne].
      - rewrite <- E, EX, find_set_eq by congruence. split; discriminate.
      - rewrite find_set_ne by exact Ne. destruct (find_line (b / L) (a_lines a)); split; congruence. }
    split; [exact HPres|]. intros b v v' Hv Hv'.
    rewrite (lb_content a' _ b v' Q2 Hv'). pose proof (lb_content a m b v R Hv) as Ev.
    unfold content, swrite, over. destruct ((addr <=? b) && (b <? addr + N.of_nat (length buf))); [reflexivity|].
    symmetry. exact Ev.
  Qed.

  (** Writing bytes [v] where the memory shows [f] gives a memory that shows [over f]. *)
  Definition shows (a : adata) (f : N -> N) : Prop := forall b v, lb a b = Some v -> v = f b.
  Lemma write_shows : forall a addr buf f, W a -> shows a f -> legal k total addr (N.of_nat (length buf)) = true -> lb a addr <> None ->
    exists a', mem_write nosh a addr buf = (a', Done tt) /\ W a' /\ (forall b, lb a b = None <-> lb a' b = None) /\ shows a' (over f addr buf).
  Proof.
    intros a addr buf f Wa Sh HL HP. destruct (write_present a addr buf Wa HL HP) as [a' [Q1 [Q2 [_ [Q3 Q4]]]]].
    exists a'. split; [exact Q1|]. split; [exact Q2|]. split; [exact Q3|]. intros b v' Hv'.
    destruct (lb a b) as [v|] eqn:Ev; [|apply Q3 in Ev; congruence].
    rewrite (Q4 b v v' Ev Hv'). rewrite (Sh b v Ev). unfold over. destruct (_ && _); reflexivity.
  Qed.
  Lemma read_shows : forall a addr size f, W a -> shows a f -> legal k total addr size = true -> lb a addr <> None ->
    mem_read nosh a addr size = Done (bytes_of f addr size).
  Proof.
    intros a addr size f Wa Sh HL HP. rewrite read_present by assumption. f_equal. apply bytes_ext. intros b B1 B2.
    pose proof (legal_end _ _ HL) as [E1 [E2 E3]].
    assert (NB : lb a b <> None). { intros X. apply HP. apply (lb_block a addr b); [|exact X]. rewrite (W_L a Wa). symmetry. apply (same_block addr size); assumption. }
    destruct (lb a b) as [v|] eqn:Ev; [|congruence]. apply Sh. exact Ev.
  Qed.
  Lemma shows_ext : forall a f g, (forall b, f b = g b) -> shows a f -> shows a g.
  Proof. intros a f g H Sh b v Hv. rewrite <- H. apply Sh. exact Hv. Qed.

  (** Previous values: each write's are what was visible below it. *)
  Definition wok (w : swr) : Prop :=
    length (w_prev w) = length (w_data w) /\ (1 <= length (w_data w))%nat /\ legal k total (w_addr w) (N.of_nat (length (w_data w))) = true.
  Fixpoint prevs (f : N -> N) (out : list swr) : Prop :=
    match out with
    | [] => True
    | w :: r => wok w /\ (forall b, w_addr w <= b -> b < w_addr w + N.of_nat (length (w_data w)) -> nth (N.to_nat (b - w_addr w)) (w_prev w) 0 = f b)
                /\ prevs (over f (w_addr w) (w_data w)) r
    end.
  Definition ad (w : swr) : N * list N := (w_addr w, w_data w).
  Lemma prevs_ext : forall out f g, (forall b, f b = g b) -> prevs f out -> prevs g out.
  Proof.
    induction out as [|w r IH]; intros f g H; cbn [prevs]; [auto|]. intros [H1 [H2 H3]]. split; [exact H1|]. split.
    - intros b B1 B2. rewrite <- H. apply H2; assumption.
    - apply (IH (over f (w_addr w) (w_data w))); [|exact H3]. intros b. apply over_ext. exact H.
  Qed.
  Lemma prevs_app : forall a b f, prevs f (a ++ b) <-> prevs f a /\ prevs (view f (map ad a)) b.
  Proof.
    induction a as [|w r IH]; intros b f; cbn [app prevs map ad view].
    - tauto.
    - rewrite IH. tauto.
  Qed.
  Lemma prevs_wok : forall out f w, prevs f out -> In w out -> wok w.
  Proof. induction out as [|x r IH]; intros f w H Hw; [destruct Hw|]. destruct H as [H1 [_ H3]]. destruct Hw as [<-|Hw]; [exact H1|]. apply (IH _ _ H3 Hw). Qed.
  Lemma covers_spec : forall w b, wok w -> covers w b = true <-> w_addr w <= b /\ b < w_addr w + N.of_nat (length (w_data w)).
  Proof.
    intros w b [_ [_ HL]]. pose proof (legal_end _ _ HL) as [E1 _]. unfold covers. rewrite w64_small by (change (2 ^ 64) with 18446744073709551616 in HT; lia).
    rewrite andb_true_iff, N.leb_le, N.ltb_lt. reflexivity.
  Qed.

  Lemma view_out : forall out f b, (forall w, In w out -> b < w_addr w \/ w_addr w + N.of_nat (length (w_data w)) <= b) -> view f (map ad out) b = f b.
  Proof.
    induction out as [|w r IH]; intros f b H; cbn [map ad view]; [reflexivity|].
    rewrite IH; [apply over_out, H; left; reflexivity|]. intros x Hx. apply H. right. exact Hx.
  Qed.
  Lemma view_hit : forall out f g b, (exists w, In w out /\ w_addr w <= b /\ b < w_addr w + N.of_nat (length (w_data w))) ->
    view f (map ad out) b = view g (map ad out) b.
  Proof.
    induction out as [|w r IH]; intros f g b [x [Hx [B1 B2]]]; [destruct Hx|]. cbn [map ad view].
    destruct (existsb (fun w => (w_addr w <=? b) && (b <? w_addr w + N.of_nat (length (w_data w)))) r) eqn:EX.
    - apply IH. apply existsb_exists in EX. destruct EX as [y [Y1 Y2]]. apply andb_prop in Y2. destruct Y2 as [Y2 Y3].
      apply N.leb_le in Y2. apply N.ltb_lt in Y3. exists y. auto.
    - assert (NX : forall y, In y r -> b < w_addr y \/ w_addr y + N.of_nat (length (w_data y)) <= b).
      { intros y Hy. destruct (over_dec (w_addr y) (w_data y) b) as [[C1 C2]|C]; [|exact C]. exfalso.
        assert (X : existsb (fun w => (w_addr w <=? b) && (b <? w_addr w + N.of_nat (length (w_data w)))) r = true).
        { apply existsb_exists. exists y. split; [exact Hy|]. apply andb_true_intro. split; [apply N.leb_le|apply N.ltb_lt]; assumption. }
        congruence. }
      rewrite !view_out by exact NX. destruct Hx as [<-|Hx].
      + rewrite !over_in by assumption. reflexivity.
      + destruct (NX x Hx); lia.
  Qed.
  (** Changing the memory below the writes. *)
  Lemma view_below : forall out f addr buf b, (forall w, In w out -> wok w) ->
    view (over f addr buf) (map ad out) b = if existsb (fun w => covers w b) out then view f (map ad out) b else over f addr buf b.
  Proof.
    intros out f addr buf b HW. destruct (existsb (fun w => covers w b) out) eqn:EX.
    - apply view_hit. apply existsb_exists in EX. destruct EX as [w [X1 X2]]. exists w. split; [exact X1|]. apply covers_spec; auto.
    - apply view_out. intros w Hw. destruct (over_dec (w_addr w) (w_data w) b) as [[C1 C2]|C]; [|exact C]. exfalso.
      assert (X : existsb (fun w => covers w b) out = true) by (apply existsb_exists; exists w; split; [exact Hw|]; apply covers_spec; auto). congruence.
  Qed.

  Lemma set_byte_len : forall l i v, (i < length l)%nat -> length (set_byte l i v) = length l.
  Proof. intros l i v H. unfold set_byte. rewrite app_length, firstn_length. cbn [length]. rewrite skipn_length. lia. Qed.
  Lemma set_byte_nth : forall l i v j, (i < length l)%nat -> nth j (set_byte l i v) 0 = if Nat.eqb j i then v else nth j l 0.
  Proof.
    intros l i v j H. unfold set_byte. destruct (Nat.eqb_spec j i) as [->|Ne].
    - rewrite app_nth2 by (rewrite firstn_length; lia). rewrite firstn_length, Nat.min_l by lia. rewrite Nat.sub_diag. reflexivity.
    - destruct (Nat.lt_ge_cases j i).
      + rewrite app_nth1 by (rewrite firstn_length; lia). rewrite nth_firstn by lia. reflexivity.
      + rewrite app_nth2 by (rewrite firstn_length; lia). rewrite firstn_length, Nat.min_l by lia.
        destruct (j - i)%nat as [|n] eqn:E; [lia|]. cbn [nth]. rewrite nth_skipn. f_equal. lia.
  Qed.

  (** One byte written below the outstanding writes, as the inner loop of mergeWrite does it. *)
  Lemma merge_hit_spec : forall out f b v, prevs f out ->
    match merge_hit b v out with
    | Some out' => existsb (fun w => covers w b) out = true /\ prevs (over f b [v]) out' /\ map ad out' = map ad out /\ map w_id out' = map w_id out
    | None => existsb (fun w => covers w b) out = false /\ prevs (over f b [v]) out
    end.
  Proof.
    induction out as [|w r IH]; intros f b v H; cbn [merge_hit existsb]; [split; [reflexivity|exact I]|].
    destruct H as [H1 [H2 H3]]. destruct (covers w b) eqn:EC.
    - apply (covers_spec w b H1) in EC. destruct EC as [C1 C2]. split; [reflexivity|]. pose proof H1 as [K1 [K2 K3]].
      assert (IB : (N.to_nat (b - w_addr w) < length (w_prev w))%nat) by lia.
      split; [|split; reflexivity]. cbn [prevs w_addr w_data w_prev]. split; [|split].
      + split; cbn [w_prev w_data w_addr]; [rewrite set_byte_len by exact IB; exact K1|]. split; assumption.
      + intros b' B1 B2. rewrite set_byte_nth by exact IB. destruct (Nat.eqb_spec (N.to_nat (b' - w_addr w)) (N.to_nat (b - w_addr w))) as [E|Ne].
        * assert (b' = b) by lia. subst b'. rewrite over_in by (cbn [length]; lia). rewrite N.sub_diag. reflexivity.
        * rewrite over_out by (cbn [length]; lia). apply H2; assumption.
      + apply (prevs_ext r (over f (w_addr w) (w_data w))); [|exact H3]. intros b'.
        destruct (over_dec (w_addr w) (w_data w) b') as [[B1 B2]|B].
        * rewrite !over_in by assumption. reflexivity.
        * rewrite (over_out _ (w_addr w)) by exact B. rewrite (over_out _ (w_addr w)) by exact B. rewrite over_out by (cbn [length]; lia). reflexivity.
    - assert (NC : b < w_addr w \/ w_addr w + N.of_nat (length (w_data w)) <= b).
      { destruct (over_dec (w_addr w) (w_data w) b) as [C|C]; [|exact C]. apply (covers_spec w b H1) in C. congruence. }
      assert (HE : forall b', over (over f (w_addr w) (w_data w)) b [v] b' = over (over f b [v]) (w_addr w) (w_data w) b').
      { intros b'. destruct (over_dec b [v] b') as [[B1 B2]|B]; cbn [length] in *.
        - rewrite (over_in _ b) by (cbn [length]; lia). rewrite (over_out _ (w_addr w)) by lia. rewrite over_in by (cbn [length]; lia). reflexivity.
        - rewrite (over_out _ b) by (cbn [length]; lia). unfold over at 1 2. destruct (_ && _); [reflexivity|]. rewrite over_out by (cbn [length]; lia). reflexivity. }
      assert (HP : forall b', w_addr w <= b' -> b' < w_addr w + N.of_nat (length (w_data w)) ->
                     nth (N.to_nat (b' - w_addr w)) (w_prev w) 0 = over f b [v] b').
      { intros b' B1 B2. rewrite over_out by (cbn [length]; lia). apply H2; assumption. }
      specialize (IH _ b v H3). cbn [orb]. destruct (merge_hit b v r) as [r'|].
      + destruct IH as [I1 [I2 [I3 I4]]]. split; [exact I1|]. split; [|cbn [map]; rewrite I3, I4; split; reflexivity].
        cbn [prevs]. split; [exact H1|]. split; [exact HP|]. apply (prevs_ext r' _ _ HE I2).
      + destruct IH as [I1 I2]. split; [exact I1|]. cbn [prevs]. split; [exact H1|]. split; [exact HP|]. apply (prevs_ext r _ _ HE I2).
  Qed.
End CM.
