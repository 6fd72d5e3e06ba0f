(** C60: memory interfaces. *)
From Coq Require Import List NArith Arith Bool Lia.
From Verif Require Import MathUtilsModel LayoutModel LayoutProofs LayoutProps ArchDataModel ArchDataProofs ArchDataProps
  StorageModel MemIFModel MemIFProofs.
Import ListNotations.
Open Scope N_scope.

(** The specification. A byte per address as in C37; for each block, if a DMI has been handed out for it, whether that is
    valid and whether its block still exists; the counts; the notifications. *)
Record spec := mkSp { p_m : smem; p_d : N -> option (bool * bool); p_r : N; p_w : N; p_n : list noti }.

Section SPEC.
  Variables (k total fill : N) (fsz : nat) (free robs wobs : bool).
  (** The access stays within one block. *)
  Definition one_block (addr size : N) : bool := addr mod 2 ^ k + size <=? 2 ^ k.
  (** The bytes now held. *)
  Definition now (p : spec) (addr size : N) : list N := sread k fill fsz (p_m p) addr size.
  Definition put (p : spec) (addr : N) (buf : list N) : spec :=
    mkSp (swrite (p_m p) addr buf) (p_d p) (p_r p) (p_w p) (p_n p).

  Definition sp_step (p : spec) (o : iop) : spec * outcome ires :=
    match o with
    | IRead addr size =>
        let p := mkSp (p_m p) (p_d p) (p_r p + 1) (p_w p) (p_n p) in
        if one_block addr size && (addr + size <=? total)
        then (mkSp (p_m p) (p_d p) (p_r p) (p_w p) (p_n p ++ if robs then [NRead addr (now p addr size)] else []),
              Done (RBytes (Some (now p addr size))))
        else (p, Done (RBytes None))
    | IWrite addr buf =>
        let p := mkSp (p_m p) (p_d p) (p_r p) (p_w p + 1) (p_n p) in
        let size := N.of_nat (length buf) in
        if one_block addr size && (addr + size <=? total)
        then (mkSp (swrite (p_m p) addr buf) (p_d p) (p_r p) (p_w p)
                (p_n p ++ if wobs then [NWrite addr (now p addr size) buf] else []), Done (RBool true))
        else (p, Done (RBool false))
    | IPeek addr size => (p, Done (RBytes (if addr + size <=? total then Some (now p addr size) else None)))
    | IPoke addr buf =>
        if addr + N.of_nat (length buf) <=? total then (put p addr buf, Done (RBool true)) else (p, Done (RBool false))
    | IGet addr size =>
        if negb (one_block addr size) then (p, Done (RDmi None))
        else let key := addr / 2 ^ k * 2 ^ k in
             match p_d p key with
             | Some _ => (p, Done (RDmi (Some key)))
             | None => if addr <? total
                       then (mkSp (p_m p) (fun b => if b =? key then Some (true, true) else p_d p b) (p_r p) (p_w p) (p_n p),
                             Done (RDmi (Some key)))
                       else (p, Asserted)
             end
    | IInval => (mkSp (p_m p) (fun b => option_map (fun x => (false, snd x)) (p_d p b)) (p_r p) (p_w p) (p_n p), Done RUnit)
    | IClean => (mkSp (fun _ => None) (fun b => option_map (fun x => (fst x, snd x && negb free)) (p_d p b)) (p_r p) (p_w p) (p_n p),
                 Done RUnit)
    | DRead key addr size =>
        match p_d p key with
        | None => (p, Undefined)
        | Some (valid, live) =>
            if valid && (key <=? addr) && (addr + size <=? key + 2 ^ k)
            then (p, if live then Done (RBytes (Some (now p addr size))) else Undefined)
            else (p, Done (RBytes None))
        end
    | DWrite key addr buf =>
        match p_d p key with
        | None => (p, Undefined)
        | Some (valid, live) =>
            if valid && (key <=? addr) && (addr + N.of_nat (length buf) <=? key + 2 ^ k)
            then if live then (put p addr buf, Done (RBool true)) else (p, Undefined)
            else (p, Done (RBool false))
        end
    | DPeek key addr size =>
        match p_d p key with
        | None => (p, Undefined)
        | Some (_, live) =>
            if (key <=? addr) && (addr + size <=? key + 2 ^ k)
            then (p, if live then Done (RBytes (Some (now p addr size))) else Undefined)
            else (p, Done (RBytes None))
        end
    | DPoke key addr buf =>
        match p_d p key with
        | None => (p, Undefined)
        | Some (_, live) =>
            if (key <=? addr) && (addr + N.of_nat (length buf) <=? key + 2 ^ k)
            then if live then (put p addr buf, Done (RBool true)) else (p, Undefined)
            else (p, Done (RBool false))
        end
    end.
  Fixpoint sp_run (p : spec) (ops : list iop) : option (spec * list (outcome ires)) :=
    match ops with
    | [] => Some (p, [])
    | o :: r => match sp_step p o with
                | (_, Undefined) => None
                | (p', x) => match sp_run p' r with Some (p'', l) => Some (p'', x :: l) | None => None end
                end
    end.
End SPEC.

(** Accesses are not empty, and address and size do not wrap. *)
Definition acc_ok (addr size : N) : Prop := 0 < size /\ addr + size < 2 ^ 64.
Definition iop_ok (o : iop) : Prop :=
  match o with
  | IRead a n | IPeek a n | IGet a n | DRead _ a n | DPeek _ a n => acc_ok a n
  | IWrite a b | IPoke a b | DWrite _ a b | DPoke _ a b => acc_ok a (N.of_nat (length b))
  | IInval | IClean => True
  end.
Definition fresh : spec := mkSp (fun _ => None) (fun _ => None) 0 0 [].

(** Bounds of an access inside the block at [key]. *)
Lemma bounds : forall key a n L total, 0 < n -> key <= a -> a + n <= key + L -> key + L <= total -> total + L <= big ->
  a < big /\ a - key + n <= L /\ a < key + L /\ a < total /\ a + n <= total /\ a + n < big.
Proof. intros. lia. Qed.
Lemma pos_len : forall (b : list N), 0 < N.of_nat (length b) -> b <> [].
Proof. intros b H E. subst b. cbn in H. lia. Qed.
Lemma len_pos : forall (b : list N), b <> [] -> 0 < N.of_nat (length b).
Proof. intros [|x b] H; [congruence|cbn; lia]. Qed.

Section REF.
  Variables (sh : overshift) (k total fill : N) (fsz : nat) (free robs wobs : bool).
  Hypothesis Hk : k <= 30.
  Hypothesis HT : total < big.
  Hypothesis HM : total mod 2 ^ k = 0.
  Hypothesis HZ : fsz_ok fsz.
  Hypothesis HF : fill < 2 ^ (8 * N.of_nat fsz).
  Hypothesis HS : sh_ok sh fsz fill.
  Notation L := (2 ^ k).
  Notation RI := (RI k total fill fsz free).

  Definition dmi_inv (a : adata) (g : nat) (key : N) (d : option dmi) (q : option (bool * bool)) : Prop :=
    match d, q with
    | None, None => True
    | Some d, Some (v, l) => d_valid d = v /\ d_start d = key /\ d_idx d = key / L /\ key mod L = 0 /\ key + L <= total /\
        Nat.eqb (d_gen d) g = l /\ (d_gen d <= g)%nat /\ (l = true -> find_line (key / L) (a_lines a) <> None)
    | _, _ => False
    end.
  Record NI (s : node) (p : spec) : Prop := mkNI {
    ni_m : RI (n_mem s) (p_m p);
    ni_d : forall key, dmi_inv (n_mem s) (n_gen s) key (find_dmi key (n_dmi s)) (p_d p key);
    ni_r : n_reads s = p_r p; ni_w : n_writes s = p_w p; ni_n : n_noti s = p_n p; ni_ro : n_robs s = robs; ni_wo : n_wobs s = wobs }.

  Lemma RI_ext : forall a m m', (forall b, m b = m' b) -> RI a m -> RI a m'.
  Proof.
    intros a m m' E [R1 R2 R3 R4 R5 R6 R7]. constructor; auto.
    - intros i x H. destruct (R6 i x H) as [X1 X2]. split; [exact X1|]. intros j Hj. rewrite X2 by exact Hj.
      unfold content. rewrite E. reflexivity.
    - intros b H. rewrite <- E. auto.
  Qed.
  Lemma RI_data : forall a m l, (forall i, option_map l_data (find_line i l) = option_map l_data (find_line i (a_lines a))) ->
    RI a m -> RI (with_lines a l) m.
  Proof.
    intros a m l E [R1 R2 R3 R4 R5 R6 R7]. constructor; cbn [with_lines a_lsb a_size a_fill a_fsz a_free a_lines]; auto.
    - intros i x H. specialize (E i). rewrite H in E. cbn in E. destruct (find_line i (a_lines a)) as [y|] eqn:F; [|discriminate].
      cbn in E. injection E as E. rewrite E. apply R6. exact F.
    - intros b H. apply R7. specialize (E (b / L)). rewrite H in E. destruct (find_line (b / L) (a_lines a)); [discriminate|reflexivity].
  Qed.

  Lemma HT' : total < 2 ^ 64. Proof. exact HT. Qed.
  Lemma top : total + L <= big. Proof. apply aligned_top; assumption. Qed.
  Lemma n_k_eq : forall s p, NI s p -> n_k s = k. Proof. intros s p [[R _ _ _ _ _ _] _ _ _ _ _ _]. exact R. Qed.
  Lemma n_end_eq : forall s p, NI s p -> n_end s = total. Proof. intros s p [[_ R _ _ _ _ _] _ _ _ _ _ _]. exact R. Qed.
  Lemma a_L_eq : forall s p, NI s p -> a_L (n_mem s) = L.
  Proof. intros s p N. unfold a_L. pose proof (n_k_eq s p N) as E. unfold n_k in E. rewrite E. reflexivity. Qed.

  Lemma block_legal : forall a n, 0 < n -> a + n <= total -> a mod L + n <= L -> legal k total a n = true.
  Proof.
    intros a n H1 H2 H3. unfold legal. destruct (N.ltb_spec a total); [|lia]. destruct (N.leb_spec (a mod L + n) L); [reflexivity|lia].
  Qed.
  (** A legal access ends inside the memory. *)
  Lemma block_inside : forall a, a < total -> a / L * L + L <= total.
  Proof.
    intros a H. pose proof (LP k) as P. pose proof (split_L k total) as ST. rewrite HM, N.add_0_r in ST.
    assert (X : a / L < total / L).
    { apply N.mul_lt_mono_pos_r with L; [exact P|]. pose proof (split_L k a). lia. }
    assert (Y : (a / L + 1) * L <= total / L * L) by (apply N.mul_le_mono_r; lia). lia.
  Qed.

  Lemma obj_read_ok : forall s p a n, NI s p -> 0 < n -> a + n <= total -> a mod L + n <= L ->
    obj_read sh s a n = Done (Some (sread k fill fsz (p_m p) a n)).
  Proof.
    intros s p a n N H1 H2 H3. unfold obj_read.
    assert (BB : a + n < big) by lia.
    pose proof (read_ok sh k total fill fsz free Hk HT' HM HZ HF HS (n_mem s) (p_m p) a n (ni_m s p N) BB) as R.
    rewrite (block_legal a n H1 H2 H3) in R. rewrite R. reflexivity.
  Qed.

  Lemma node_peek_ok : forall s p a n, NI s p -> 0 < n -> a + n < big ->
    node_peek sh s a n = Done (if a + n <=? total then Some (sread k fill fsz (p_m p) a n) else None).
  Proof.
    intros s p a n N H1 H2. unfold node_peek, try_peek. rewrite (n_k_eq s p N), (n_end_eq s p N).
    rewrite in_window_eq by exact H2. destruct (N.leb_spec 0 a); [|lia]. cbn [andb].
    destruct (N.leb_spec (a + n) total) as [C|C]; cbn [negb]; [|reflexivity].
    rewrite w64_small by exact H2. pose proof top as TP.
    rewrite (peek_loop_ok k Hk fill fsz (p_m p)).
    - cbn [app]. do 3 f_equal. lia.
    - lia.
    - intros x q Q1 Q2 Q3 Q4. apply obj_read_ok; try assumption. lia.
    - lia.
    - apply rounds_enough; lia.
  Qed.

  (** The parts of a node other than its memory and their invariant. *)
  Lemma NI_mem : forall s p a m, NI s p -> RI a m -> (forall i, find_line i (a_lines (n_mem s)) <> None -> find_line i (a_lines a) <> None) ->
    NI (with_mem s a) (mkSp m (p_d p) (p_r p) (p_w p) (p_n p)).
  Proof.
    intros s p a m [N1 N2 N3 N4 N5 N6 N7] R P. constructor; cbn [with_mem n_mem n_gen n_dmi n_reads n_writes n_robs n_wobs n_noti p_m p_d p_r p_w p_n]; auto.
    intros key. specialize (N2 key). unfold dmi_inv in *. destruct (find_dmi key (n_dmi s)) as [d|]; [|exact N2].
    destruct (p_d p key) as [[v l]|]; [|exact N2]. destruct N2 as [D1 [D2 [D3 [D4 [D5 [D6 [D7 D8]]]]]]].
    repeat (split; [assumption|]). intros El. apply P. auto.
  Qed.

  Lemma obj_write_ok : forall s p a b, NI s p -> b <> [] -> a + N.of_nat (length b) <= total -> a mod L + N.of_nat (length b) <= L ->
    exists s', obj_write sh s a b = (s', Done true) /\ NI s' (mkSp (swrite (p_m p) a b) (p_d p) (p_r p) (p_w p) (p_n p)).
  Proof.
    intros s p a b N H1 H2 H3. unfold obj_write.
    pose proof (len_pos b H1) as H0.
    assert (BB : a + N.of_nat (length b) < big) by lia.
    pose proof (write_ok sh k total fill fsz free Hk HT' HM HZ HF HS (n_mem s) (p_m p) a b (ni_m s p N) BB) as R.
    rewrite (block_legal a _ H0 H2 H3) in R. destruct R as [a' [E1 E2]].
    rewrite E1. cbn [fst snd obind]. eexists. split; [reflexivity|]. apply NI_mem; [exact N|exact E2|].
    intros i P. pose proof (present_write sh (n_mem s) a b i P) as Q. rewrite E1 in Q. exact Q.
  Qed.

  Lemma NI_ext : forall s p m m', (forall b, m b = m' b) -> NI s (mkSp m (p_d p) (p_r p) (p_w p) (p_n p)) ->
    NI s (mkSp m' (p_d p) (p_r p) (p_w p) (p_n p)).
  Proof. intros s p m m' E [N1 N2 N3 N4 N5 N6 N7]. constructor; auto. eapply RI_ext; eauto. Qed.

  Lemma node_poke_ok : forall s p a b, NI s p -> b <> [] -> a + N.of_nat (length b) < big ->
    if a + N.of_nat (length b) <=? total
    then exists s', node_poke sh s a b = (s', Done true) /\ NI s' (put p a b)
    else node_poke sh s a b = (s, Done false).
  Proof.
    intros s p a b N H1 H2. unfold node_poke, try_poke. rewrite (n_k_eq s p N), (n_end_eq s p N).
    pose proof (len_pos b H1) as H0.
    rewrite in_window_eq by exact H2. destruct (N.leb_spec 0 a); [|lia]. cbn [andb].
    destruct (N.leb_spec (a + N.of_nat (length b)) total) as [C|C]; cbn [negb]; [|reflexivity].
    rewrite w64_small by exact H2. pose proof top as TP.
    apply (poke_loop_ok k Hk node (fun s m => NI s (mkSp m (p_d p) (p_r p) (p_w p) (p_n p)))).
    - lia.
    - intros s0 m m' E. apply NI_ext. exact E.
    - intros s0 x b0 m Q1 Q2 Q3 Q4 Q5. apply (obj_write_ok s0 _ x b0 Q5 Q1); cbn [p_m]; [lia|exact Q4].
    - lia.
    - lia.
    - apply rounds_enough; lia.
    - destruct p. exact N.
  Qed.

  Lemma find_dmi_app : forall key k' d l, find_dmi key (l ++ [(k', d)]) =
    match find_dmi key l with Some x => Some x | None => if k' =? key then Some d else None end.
  Proof. intros key k' d l. induction l as [|[i x] r IH]; cbn; [reflexivity|]. destruct (i =? key); [reflexivity|exact IH]. Qed.
  Lemma find_dmi_map : forall key (f : dmi -> dmi) l, find_dmi key (map (fun p => (fst p, f (snd p))) l) = option_map f (find_dmi key l).
  Proof. intros key f l. induction l as [|[i x] r IH]; cbn; [reflexivity|]. destruct (i =? key); [reflexivity|exact IH]. Qed.

  Lemma key_off : forall key a, key mod L = 0 -> key <= a -> a < key + L -> a / L = key / L /\ a mod L = a - key.
  Proof.
    intros key a M H1 H2. pose proof (LP k) as P. pose proof (split_L k key) as SK. rewrite M, N.add_0_r in SK.
    assert (E : a = a - key + key / L * L) by lia. split.
    - rewrite E, N.div_add by lia. rewrite (N.div_small (a - key)) by lia. lia.
    - rewrite E at 1. rewrite N.mod_add by lia. apply N.mod_small. lia.
  Qed.

  Section DMI.
    Variables (s : node) (p : spec) (key : N) (d : dmi) (v l : bool).
    Hypothesis HN : NI s p.
    Hypothesis FD : find_dmi key (n_dmi s) = Some d.
    Hypothesis PD : p_d p key = Some (v, l).

    Lemma dfacts : d_valid d = v /\ d_start d = key /\ d_idx d = key / L /\ key mod L = 0 /\ key + L <= total /\
        Nat.eqb (d_gen d) (n_gen s) = l /\ (d_gen d <= n_gen s)%nat /\ (l = true -> find_line (key / L) (a_lines (n_mem s)) <> None).
    Proof. pose proof (ni_d s p HN key) as Q. rewrite FD, PD in Q. exact Q. Qed.

    Lemma raw_read_ok : forall a n, 0 < n -> key <= a -> a + n <= key + L ->
      raw_read s d a n = if l then Done (Some (sread k fill fsz (p_m p) a n)) else Undefined.
    Proof.
      intros a n H1 H2 H3. destruct dfacts as [D1 [D2 [D3 [D4 [D5 [D6 [D7 D8]]]]]]]. 
      destruct (bounds key a n L total H1 H2 H3 D5 top) as [B1 [B2 [B3 [B4 [B5 B6]]]]].
      unfold raw_read. rewrite D6. destruct l; cbn [negb]; [|reflexivity].
      rewrite D2, D3, (a_L_eq s p HN). rewrite sub_w_le by assumption.
      destruct (find_line (key / L) (a_lines (n_mem s))) as [x|] eqn:FL; [|exfalso; exact (D8 eq_refl eq_refl)].
      apply N.ltb_ge in B2. rewrite B2. f_equal. f_equal.
      destruct (key_off key a D4 H2 B3) as [K1 K2].
      assert (LG : legal k total a n = true) by (apply block_legal; try assumption; rewrite K2; apply N.ltb_ge; exact B2).
      pose proof (read_ok sh k total fill fsz free Hk HT' HM HZ HF HS (n_mem s) (p_m p) a n (ni_m s p HN) B6) as R.
      rewrite LG in R. unfold mem_read in R.
      pose proof (n_k_eq s p HN) as NK. unfold n_k in NK. pose proof (n_end_eq s p HN) as NE. unfold n_end in NE.
      rewrite NE in R. apply N.ltb_lt in B4. rewrite B4 in R. cbn [negb] in R. rewrite NK, N.shiftr_div_pow2, K1, FL in R.
      unfold line_read in R. rewrite (a_L_eq s p HN) in R. rewrite N.shiftl_mul_pow2 in R.
      pose proof (split_L k key) as SK. rewrite D4, N.add_0_r in SK. rewrite <- SK in R.
      destruct (L <? w64 _) in R; [discriminate|]. destruct (L <? _) in R; [discriminate|]. injection R as R. exact R.
    Qed.

    Lemma raw_write_ok : forall a b, b <> [] -> key <= a -> a + N.of_nat (length b) <= key + L ->
      if l then exists s', raw_write d s a b = (s', Done true) /\ NI s' (put p a b) else raw_write d s a b = (s, Undefined).
    Proof.
      intros a b H1 H2 H3. destruct dfacts as [D1 [D2 [D3 [D4 [D5 [D6 [D7 D8]]]]]]]. 
      pose proof (len_pos b H1) as H0.
      destruct (bounds key a _ L total H0 H2 H3 D5 top) as [B1 [B2 [B3 [B4 [B5 B6]]]]].
      unfold raw_write. rewrite D6. destruct l; cbn [negb]; [|reflexivity].
      rewrite D2, D3, (a_L_eq s p HN). rewrite sub_w_le by assumption.
      destruct (find_line (key / L) (a_lines (n_mem s))) as [x|] eqn:FL; [|exfalso; exact (D8 eq_refl eq_refl)].
      apply N.ltb_ge in B2. rewrite B2.
      eexists. split; [reflexivity|].
      destruct (key_off key a D4 H2 B3) as [K1 K2].
      assert (LG : legal k total a (N.of_nat (length b)) = true) by (apply block_legal; try assumption; rewrite K2; apply N.ltb_ge; exact B2).
      pose proof (write_ok sh k total fill fsz free Hk HT' HM HZ HF HS (n_mem s) (p_m p) a b (ni_m s p HN) B6) as R.
      rewrite LG in R. destruct R as [a' [E1 E2]].
      pose proof (n_k_eq s p HN) as NK. unfold n_k in NK. pose proof (n_end_eq s p HN) as NE. unfold n_end in NE.
      unfold mem_write, get_line in E1. rewrite NE in E1. apply N.ltb_lt in B4. rewrite B4 in E1. cbn [negb] in E1.
      rewrite NK, N.shiftr_div_pow2, K1, FL in E1. unfold line_write in E1.
      rewrite (a_L_eq s p HN) in E1. rewrite N.shiftl_mul_pow2 in E1.
      pose proof (split_L k key) as SK. rewrite D4, N.add_0_r in SK. rewrite <- SK in E1.
      destruct (L <? w64 _) in E1; [discriminate|]. destruct (L <? _) in E1; [discriminate|]. injection E1 as E1.
      apply NI_mem; [exact HN| |].
      - subst a'. match goal with |- RI (with_lines _ ?ll) _ => set (lines := ll) end.
        change (RI (with_lines (with_lines (n_mem s) (set_line (key / L) (mkLine (firstn (N.to_nat (a - key)) (l_data x) ++ b ++ skipn (N.to_nat (a - key) + length b) (l_data x)) true) (a_lines (n_mem s)))) lines) (swrite (p_m p) a b)).
        apply RI_data; [|exact E2]. intros i. cbn [with_lines a_lines]. unfold lines.
        destruct (N.eq_dec (key / L) i) as [<-|Ne].
        + rewrite !find_set_eq by congruence. reflexivity.
        + rewrite !find_set_ne by exact Ne. reflexivity.
      - intros i Pi. cbn [with_lines a_lines]. apply present_set. exact Pi.
    Qed.

    Lemma dspan : forall a n, 0 < n -> a + n < big ->
      (negb (spans k a n) && in_window (d_start d) (d_start d + a_L (n_mem s)) a n) = (key <=? a) && (a + n <=? key + L).
    Proof.
      intros a n H1 H2. destruct dfacts as [D1 [D2 [D3 [D4 [D5 [D6 [D7 D8]]]]]]].
      rewrite D2, (a_L_eq s p HN), in_window_eq by exact H2. rewrite spans_eq by assumption. rewrite negb_involutive.
      destruct (N.leb_spec key a) as [A|A]; cbn [andb]; [|apply andb_false_r].
      destruct (N.leb_spec (a + n) (key + L)) as [B|B]; [|apply andb_false_r].
      destruct (bounds key a n L total H1 A B D5 top) as [B1 [B2 [B3 [B4 [B5 B6]]]]].
      destruct (key_off key a D4 A B3) as [K1 K2]. rewrite K2. apply N.leb_le in B2. rewrite B2. reflexivity.
    Qed.

    Lemma one_round : forall a n, 0 < n -> key <= a -> a + n <= key + L ->
      (a + n <=? block_of k (w64 (a + 2 ^ k))) = true /\ sub_w (a + n) a = n.
    Proof.
      intros a n H1 H2 H3. destruct dfacts as [D1 [D2 [D3 [D4 [D5 [D6 [D7 D8]]]]]]]. 
      destruct (bounds key a n L total H1 H2 H3 D5 top) as [B1 [B2 [B3 [B4 [B5 B6]]]]]. pose proof top as TP.
      destruct (key_off key a D4 H2 B3) as [K1 K2].
      pose proof (split_L k key) as SK. rewrite D4, N.add_0_r in SK. split.
      - rewrite next_block; [| exact Hk | clear - B4 TP; lia]. apply N.leb_le. rewrite K1. clear - SK H3. revert SK H3.
        generalize (key / L). generalize L as q. clear. intros. lia.
      - rewrite sub_w_le; clear - H1 B6; lia.
    Qed.
  End DMI.

  Lemma step_ok : forall s p o, NI s p -> iop_ok o ->
    snd (istep sh s o) = snd (sp_step k total fill fsz free robs wobs p o) /\
    (snd (istep sh s o) <> Undefined -> NI (fst (istep sh s o)) (fst (sp_step k total fill fsz free robs wobs p o))).
  Proof.
    intros s p o N HO. pose proof top as TP. pose proof (n_k_eq s p N) as NK. pose proof (n_end_eq s p N) as NE.
    destruct o as [addr size|addr buf|addr size|addr buf|addr size| | |key addr size|key addr buf|key addr size|key addr buf];
      cbn [iop_ok] in HO; try (destruct HO as [H0 HB]; change (2 ^ 64) with big in HB).
    - (* IRead *)
      cbn [istep sp_step]. unfold node_read. change (n_k (count_read s)) with (n_k s). change (n_end (count_read s)) with (n_end s).
      rewrite NK, NE, spans_eq, in_window_eq by assumption. unfold one_block.
      assert (NC : NI (count_read s) (mkSp (p_m p) (p_d p) (p_r p + 1) (p_w p) (p_n p))).
      { destruct N as [N1 N2 N3 N4 N5 N6 N7]. constructor; cbn; auto. congruence. }
      destruct (N.leb_spec (addr mod L + size) L) as [A|A]; cbn [negb andb].
      2:{ unfold out. cbn [fst snd obind]. split; [reflexivity|]. intros _. exact NC. }
      destruct (N.leb_spec 0 addr); [|lia]. cbn [andb].
      destruct (N.leb_spec (addr + size) total) as [B|B]; cbn [negb].
      2:{ unfold out. cbn [fst snd obind]. split; [reflexivity|]. intros _. exact NC. }
      rewrite (obj_read_ok _ _ addr size NC H0 B A). cbn [p_m]. unfold out. cbn [fst snd obind]. split; [reflexivity|]. intros _.
      destruct NC as [N1 N2 N3 N4 N5 N6 N7]. change (n_robs (count_read s)) with (n_robs s).
      assert (RO : n_robs s = robs) by exact N6. rewrite RO.
      destruct robs eqn:ER; constructor; cbn in *; auto; try congruence; try (rewrite app_nil_r; exact N5); rewrite N5; reflexivity.
    - (* IWrite *)
      cbn [istep sp_step]. unfold node_write. change (n_k (count_write s)) with (n_k s). change (n_end (count_write s)) with (n_end s).
      rewrite NK, NE, spans_eq, in_window_eq by assumption. unfold one_block.
      assert (NC : NI (count_write s) (mkSp (p_m p) (p_d p) (p_r p) (p_w p + 1) (p_n p))).
      { destruct N as [N1 N2 N3 N4 N5 N6 N7]. constructor; cbn; auto. congruence. }
      destruct (N.leb_spec (addr mod L + N.of_nat (length buf)) L) as [A|A]; cbn [negb andb].
      2:{ unfold out. cbn [fst snd obind]. split; [reflexivity|]. intros _. exact NC. }
      destruct (N.leb_spec 0 addr); [|lia]. cbn [andb].
      destruct (N.leb_spec (addr + N.of_nat (length buf)) total) as [B|B]; cbn [negb].
      2:{ unfold out. cbn [fst snd obind]. split; [reflexivity|]. intros _. exact NC. }
      destruct (obj_write_ok _ _ addr buf NC (pos_len buf H0) B A) as [s' [W1 W2]].
      change (n_wobs (count_write s)) with (n_wobs s). rewrite (ni_wo s p N).
      destruct wobs eqn:EW; cbn [negb].
      + rewrite (node_peek_ok _ _ addr _ NC H0 HB). destruct (N.leb_spec (addr + N.of_nat (length buf)) total); [|lia].
        rewrite W1. unfold out. cbn [fst snd obind p_m]. split; [reflexivity|]. intros _.
        destruct W2 as [N1 N2 N3 N4 N5 N6 N7]. constructor; cbn in *; auto; try congruence. rewrite N5; reflexivity.
      + rewrite W1. unfold out. cbn [fst snd obind]. split; [reflexivity|]. intros _.
        destruct W2 as [N1 N2 N3 N4 N5 N6 N7]. constructor; cbn in *; auto; try congruence; try (rewrite app_nil_r; exact N5); rewrite N5; reflexivity.
    - (* IPeek *)
      cbn [istep sp_step]. rewrite (node_peek_ok s p addr size N H0 HB). unfold out. cbn [fst snd obind].
      split; [reflexivity|]. intros _. exact N.
    - (* IPoke *)
      cbn [istep sp_step]. pose proof (node_poke_ok s p addr buf N (pos_len buf H0) HB) as Q.
      destruct (addr + N.of_nat (length buf) <=? total).
      + destruct Q as [s' [Q1 Q2]]. rewrite Q1. unfold out. cbn [fst snd obind]. split; [reflexivity|]. intros _. exact Q2.
      + rewrite Q. unfold out. cbn [fst snd obind]. split; [reflexivity|]. intros _. exact N.
    - (* IGet *)
      cbn [istep sp_step]. unfold get_dmi. rewrite NK, spans_eq by assumption. unfold one_block.
      destruct (N.leb_spec (addr mod L + size) L) as [A|A]; cbn [negb].
      2:{ unfold out. cbn [fst snd obind]. split; [reflexivity|]. intros _. exact N. }
      rewrite block_of_eq by lia. set (key := addr / L * L). pose proof (LP k) as P.
      pose proof (split_L k addr) as SA. pose proof (mod_L k addr) as MA.
      pose proof (ni_d s p N key) as ND. unfold dmi_inv in ND.
      destruct (find_dmi key (n_dmi s)) as [d|] eqn:FD.
      { destruct (p_d p key) as [[v l]|]; [|contradiction]. unfold out. cbn [fst snd obind]. split; [reflexivity|]. intros _. exact N. }
      destruct (p_d p key) as [[v l]|] eqn:PD; [contradiction|].
      pose proof (get_line_ok sh k total fill fsz free Hk HT' HM HZ HF HS (n_mem s) (p_m p) key (ni_m s p N)) as G.
      assert (KT : (key <? total) = (addr <? total)).
      { destruct (N.ltb_spec addr total) as [C|C].
        - destruct (N.ltb_spec key total); [reflexivity|unfold key in *; lia].
        - destruct (N.ltb_spec key total) as [D|D]; [|reflexivity]. exfalso.
          pose proof (block_inside key D) as BI. unfold key in BI. rewrite N.div_mul in BI by lia. lia. }
      rewrite KT in G. destruct (N.ltb_spec addr total) as [C|C].
      + destruct G as [a' [x [G1 [G2 G3]]]]. rewrite G1.
        assert (KD : key / L = addr / L) by (unfold key; apply N.div_mul; lia).
        rewrite N.shiftr_div_pow2, N.shiftl_mul_pow2, KD. fold key.
        assert (AL : a_L a' = L) by (unfold a_L; rewrite (ri_lsb _ _ _ _ _ _ _ G2); reflexivity). rewrite AL.
        pose proof (block_inside addr C) as BI. fold key in BI.
        rewrite w64_small by lia. destruct (N.leb_spec (key + L) key); [lia|].
        unfold out. cbn [fst snd obind]. split; [reflexivity|]. intros _.
        destruct N as [N1 N2 N3 N4 N5 N6 N7].
        constructor; cbn [with_mem with_dmi n_mem n_gen n_dmi n_reads n_writes n_robs n_wobs n_noti p_m p_d p_r p_w p_n]; auto.
        intros q. rewrite find_dmi_app. specialize (N2 q). destruct (N.eqb_spec q key) as [->|Ne].
        * rewrite FD, N.eqb_refl. unfold dmi_inv. cbn [d_valid d_start d_idx d_gen]. rewrite Nat.eqb_refl.
          assert (KM : key mod L = 0) by (unfold key; apply N.mod_mul; lia).
          split; [reflexivity|]. split; [reflexivity|]. split; [congruence|]. split; [exact KM|]. split; [exact BI|].
          split; [reflexivity|]. split; [apply Nat.le_refl|]. intros _. congruence.
        * destruct (find_dmi q (n_dmi s)) as [d|].
          -- unfold dmi_inv in *. destruct (p_d p q) as [[v l]|]; [|contradiction].
             destruct N2 as [D1 [D2 [D3 [D4 [D5 [D6 [D7 D8]]]]]]].
             repeat (split; [assumption|]). intros El. eapply present_get; eauto.
          -- destruct (N.eqb_spec key q); [congruence|]. unfold dmi_inv in *. exact N2.
      + rewrite G. unfold out. cbn [fst snd obind]. split; [reflexivity|]. intros _. exact N.
    - (* IInval *)
      cbn [istep sp_step fst snd]. split; [reflexivity|]. intros _. destruct N as [N1 N2 N3 N4 N5 N6 N7].
      constructor; cbn [inval with_dmi n_mem n_gen n_dmi n_reads n_writes n_robs n_wobs n_noti p_m p_d p_r p_w p_n]; auto.
      intros key. rewrite (find_dmi_map key (fun d => mkDmi (d_start d) false (d_idx d) (d_gen d))).
      specialize (N2 key). unfold dmi_inv in *. destruct (find_dmi key (n_dmi s)) as [d|]; destruct (p_d p key) as [[v l]|]; cbn; try exact N2.
      destruct N2 as [D1 D2]. split; [reflexivity|exact D2].
    - (* IClean *)
      cbn [istep sp_step]. unfold node_clean.
      destruct (clean_ok sh k total fill fsz free Hk HT' HM HZ HF HS (n_mem s) (p_m p) (ni_m s p N)) as [a' [C1 C2]].
      rewrite C1. unfold out. cbn [fst snd obind]. split; [reflexivity|]. intros _.
      pose proof (ri_free _ _ _ _ _ _ _ (ni_m s p N)) as FE. rewrite FE.
      destruct N as [N1 N2 N3 N4 N5 N6 N7].
      constructor; cbn [n_mem n_gen n_dmi n_reads n_writes n_robs n_wobs n_noti p_m p_d p_r p_w p_n]; auto.
      intros key. specialize (N2 key). unfold dmi_inv in *.
      destruct (find_dmi key (n_dmi s)) as [d|]; destruct (p_d p key) as [[v l]|]; cbn [option_map fst snd]; try exact N2.
      destruct N2 as [D1 [D2 [D3 [D4 [D5 [D6 [D7 D8]]]]]]]. destruct free; cbn [negb].
      + rewrite andb_false_r.
        split; [exact D1|]. split; [exact D2|]. split; [exact D3|]. split; [exact D4|]. split; [exact D5|].
        split; [apply Nat.eqb_neq; clear - D7; lia|]. split; [clear - D7; lia|]. intros; discriminate.
      + rewrite andb_true_r.
        split; [exact D1|]. split; [exact D2|]. split; [exact D3|]. split; [exact D4|]. split; [exact D5|].
        split; [exact D6|]. split; [exact D7|]. intros El. specialize (D8 El).
        unfold mem_clean in C1. rewrite FE in C1. destruct (a_lines (n_mem s)) as [|q r] eqn:EL; [contradiction|].
        rewrite <- EL in *. destruct (fill_line sh (n_mem s)); try discriminate. injection C1 as <-. cbn [with_lines a_lines].
        rewrite (find_map (fun y => mkLine a (l_dirty y))). destruct (find_line (key / L) (a_lines (n_mem s))); [discriminate|contradiction].
    - (* DRead *)
      cbn [istep sp_step]. pose proof (ni_d s p N key) as ND. unfold dmi_inv in ND.
      destruct (find_dmi key (n_dmi s)) as [d|] eqn:FD; destruct (p_d p key) as [[v l]|] eqn:PD; try contradiction.
      2:{ cbn [fst snd]. split; [reflexivity|]. intros X. congruence. }
      pose proof (dspan s p key d v l N FD PD addr size H0 HB) as DS.
      unfold dmi_read. destruct ND as [D1 _]. rewrite D1, NK. rewrite <- andb_assoc, <- DS.
      destruct v; cbn [negb andb].
      2:{ unfold out. cbn [fst snd obind]. split; [reflexivity|]. intros _. exact N. }
      destruct (spans k addr size); cbn [negb andb] in *.
      { unfold out. cbn [fst snd obind]. split; [reflexivity|]. intros _. exact N. }
      destruct (in_window (d_start d) _ addr size); cbn [negb].
      2:{ unfold out. cbn [fst snd obind]. split; [reflexivity|]. intros _. exact N. }
      symmetry in DS. apply andb_prop in DS. destruct DS as [DS1 DS2]. apply N.leb_le in DS1, DS2.
      rewrite (raw_read_ok s p key d true l N FD PD addr size H0 DS1 DS2).
      unfold out. cbn [fst snd]. destruct l; cbn [obind]; (split; [reflexivity|]); intros X; [exact N|congruence].
    - (* DWrite *)
      cbn [istep sp_step]. pose proof (ni_d s p N key) as ND. unfold dmi_inv in ND.
      destruct (find_dmi key (n_dmi s)) as [d|] eqn:FD; destruct (p_d p key) as [[v l]|] eqn:PD; try contradiction.
      2:{ cbn [fst snd]. split; [reflexivity|]. intros X. congruence. }
      pose proof (dspan s p key d v l N FD PD addr _ H0 HB) as DS.
      unfold dmi_write. destruct ND as [D1 _]. rewrite D1, NK. rewrite <- andb_assoc, <- DS.
      destruct v; cbn [negb andb].
      2:{ unfold out. cbn [fst snd obind]. split; [reflexivity|]. intros _. exact N. }
      destruct (spans k addr (N.of_nat (length buf))); cbn [negb andb] in *.
      { unfold out. cbn [fst snd obind]. split; [reflexivity|]. intros _. exact N. }
      destruct (in_window (d_start d) _ addr (N.of_nat (length buf))); cbn [negb].
      2:{ unfold out. cbn [fst snd obind]. split; [reflexivity|]. intros _. exact N. }
      symmetry in DS. apply andb_prop in DS. destruct DS as [DS1 DS2]. apply N.leb_le in DS1, DS2.
      pose proof (raw_write_ok s p key d true l N FD PD addr buf (pos_len buf H0) DS1 DS2) as RW.
      destruct l.
      + destruct RW as [s' [W1 W2]]. rewrite W1. unfold out. cbn [fst snd obind]. split; [reflexivity|]. intros _. exact W2.
      + rewrite RW. unfold out. cbn [fst snd obind]. split; [reflexivity|]. intros X. congruence.
    - (* DPeek *)
      cbn [istep sp_step]. pose proof (ni_d s p N key) as ND. unfold dmi_inv in ND.
      destruct (find_dmi key (n_dmi s)) as [d|] eqn:FD; destruct (p_d p key) as [[v l]|] eqn:PD; try contradiction.
      2:{ cbn [fst snd]. split; [reflexivity|]. intros X. congruence. }
      unfold dmi_peek, try_peek. destruct ND as [D1 [D2 _]]. rewrite NK, D2, (a_L_eq s p N), in_window_eq by exact HB.
      destruct ((key <=? addr) && (addr + size <=? key + L)) eqn:DS; cbn [negb].
      2:{ unfold out. cbn [fst snd obind]. split; [reflexivity|]. intros _. exact N. }
      apply andb_prop in DS. destruct DS as [DS1 DS2]. apply N.leb_le in DS1, DS2.
      rewrite w64_small by exact HB. unfold rounds. cbn [peek_loop].
      destruct (one_round s p key d v l N FD PD addr size H0 DS1 DS2) as [O1 O2]. rewrite O1, O2.
      rewrite (raw_read_ok s p key d v l N FD PD addr size H0 DS1 DS2).
      unfold out. cbn [fst snd]. destruct l; cbn [obind app]; (split; [reflexivity|]); intros X; [exact N|congruence].
    - (* DPoke *)
      cbn [istep sp_step]. pose proof (ni_d s p N key) as ND. unfold dmi_inv in ND.
      destruct (find_dmi key (n_dmi s)) as [d|] eqn:FD; destruct (p_d p key) as [[v l]|] eqn:PD; try contradiction.
      2:{ cbn [fst snd]. split; [reflexivity|]. intros X. congruence. }
      unfold dmi_poke, try_poke. destruct ND as [D1 [D2 _]]. rewrite NK, D2, (a_L_eq s p N), in_window_eq by exact HB.
      destruct ((key <=? addr) && (addr + N.of_nat (length buf) <=? key + L)) eqn:DS; cbn [negb].
      2:{ unfold out. cbn [fst snd obind]. split; [reflexivity|]. intros _. exact N. }
      apply andb_prop in DS. destruct DS as [DS1 DS2]. apply N.leb_le in DS1, DS2.
      rewrite w64_small by exact HB. unfold rounds. cbn [poke_loop].
      destruct (one_round s p key d v l N FD PD addr _ H0 DS1 DS2) as [O1 O2]. rewrite O1, O2.
      rewrite N.ltb_irrefl. rewrite firstn_all2 by lia.
      pose proof (raw_write_ok s p key d v l N FD PD addr buf (pos_len buf H0) DS1 DS2) as RW.
      destruct l.
      + destruct RW as [s' [W1 W2]]. rewrite W1. unfold out. cbn [fst snd obind]. split; [reflexivity|]. intros _. exact W2.
      + rewrite RW. unfold out. cbn [fst snd obind]. split; [reflexivity|]. intros X. congruence.
  Qed.

  Lemma irun_ok : forall ops s p, NI s p -> Forall iop_ok ops ->
    match irun sh s ops, sp_run k total fill fsz free robs wobs p ops with
    | Some (s', l), Some (p', l') => l = l' /\ NI s' p'
    | None, None => True
    | _, _ => False
    end.
  Proof.
    induction ops as [|o r IH]; intros s p N HO; cbn [irun sp_run]; [auto|].
    apply Forall_cons_iff in HO. destruct HO as [H1 H2]. destruct (step_ok s p o N H1) as [E1 E2].
    destruct (istep sh s o) as [s1 x]. destruct (sp_step k total fill fsz free robs wobs p o) as [p1 y]. cbn [fst snd] in *. subst y.
    assert (D : x = Undefined \/ x <> Undefined) by (destruct x; auto; right; discriminate).
    destruct D as [->|D]; [exact I|]. specialize (IH s1 p1 (E2 D) H2).
    destruct x; try congruence;
    destruct (irun sh s1 r) as [[s2 l]|]; destruct (sp_run k total fill fsz free robs wobs p1 r) as [[p2 l']|]; try contradiction; auto;
      destruct IH as [-> IH]; auto.
  Qed.
End REF.

(** A memory object and its interface as constructed, in the shape the lemmas need. *)
Lemma node_facts : forall sh k total fill fsz free robs wobs s, node_make k total fill fsz free robs wobs = Done s ->
  total < 2 ^ 64 -> fill < 2 ^ 64 -> sh_ok sh fsz fill ->
  k <= 30 /\ total mod 2 ^ k = 0 /\ fsz_ok fsz /\ fill < 2 ^ (8 * N.of_nat fsz) /\ NI k total fill fsz free robs wobs s fresh.
Proof.
  intros sh k total fill fsz free robs wobs s H HT HF HS. unfold node_make in H.
  destruct (mem_make k total fill fsz free) as [a| | | |] eqn:E; try discriminate. cbn [obind] in H. injection H as <-.
  destruct (make_facts _ _ _ _ _ _ E) as [Hk [HM [HZ HF8]]].
  assert (HF' : fill < 2 ^ (8 * N.of_nat fsz)).
  { destruct (Nat.eq_dec fsz 8) as [->|Ne]; [exact HF|]. apply HF8. exact Ne. }
  split; [exact Hk|]. split; [exact HM|]. split; [exact HZ|]. split; [exact HF'|].
  constructor; cbn; auto. apply (make_ok k total fill fsz free). exact E.
Qed.

(** Whatever is called through the interface and its DMIs, every call returns what the specification says, and the counts
    and notifications are as specified; in particular the histories with undefined behaviour are exactly those in which a
    DMI is used inside its block after the memory's lines have been deleted. "Partial": empty accesses and accesses past
    the end of the address space are left out, and four- and eight-byte fill patterns need a shift that gives zero or the
    pattern (C37). *)
Theorem C60_refines_partial : forall sh k total fill fsz free robs wobs s ops,
  node_make k total fill fsz free robs wobs = Done s -> total < 2 ^ 64 -> fill < 2 ^ 64 -> sh_ok sh fsz fill -> Forall iop_ok ops ->
  match irun sh s ops, sp_run k total fill fsz free robs wobs fresh ops with
  | Some (s', l), Some (p, l') => l = l' /\ n_reads s' = p_r p /\ n_writes s' = p_w p /\ n_noti s' = p_n p
  | None, None => True
  | _, _ => False
  end.
Proof.
  intros sh k total fill fsz free robs wobs s ops H HT HF HS HO.
  destruct (node_facts sh k total fill fsz free robs wobs s H HT HF HS) as [Hk [HM [HZ [HF' N]]]].
  pose proof (irun_ok sh k total fill fsz free robs wobs Hk HT HM HZ HF' HS ops s fresh N HO) as R.
  destruct (irun sh s ops) as [[s' l]|]; destruct (sp_run k total fill fsz free robs wobs fresh ops) as [[p l']|]; auto.
  destruct R as [-> [N1 N2 N3 N4 N5 N6 N7]]. auto.
Qed.
Print Assumptions C60_refines_partial.
(** Two blocks of 16 bytes, fill 0xcc, both notification sources observed: a write and a read in a block, a spanning write
    that is refused, a poke and a peek across the blocks, a DMI that sees the bytes and changes them, and a read through the
    interface that sees the change. *)
Example C60_refines_partial_ex : exists s s' p l,
  node_make 4 32 204 1 true true true = Done s /\
  let ops := [IWrite 3 [7; 8]; IRead 2 4; IWrite 15 [1; 2]; IPoke 14 [1; 2; 3; 4]; IPeek 13 6; IGet 20 4;
              DRead 16 16 3; DWrite 16 17 [9]; IRead 16 2; IInval; DRead 16 16 1] in
  Forall iop_ok ops /\
  irun (fun _ => None) s ops = Some (s', l) /\
  sp_run 4 32 204 1 true true true fresh ops = Some (p, l) /\
  l = [Done (RBool true); Done (RBytes (Some [204; 7; 8; 204])); Done (RBool false); Done (RBool true);
       Done (RBytes (Some [204; 1; 2; 3; 4; 204])); Done (RDmi (Some 16)); Done (RBytes (Some [3; 4; 204])); Done (RBool true);
       Done (RBytes (Some [3; 9])); Done RUnit; Done (RBytes None)] /\
  n_reads s' = 2 /\ n_writes s' = 2 /\
  n_noti s' = [NWrite 3 [204; 204] [7; 8]; NRead 2 [204; 7; 8; 204]; NRead 16 [3; 9]].
Proof.
  eexists _, _, _, _. split; [vm_compute; reflexivity|]. cbv zeta.
  split; [repeat constructor|]. split; [vm_compute; reflexivity|]. split; [vm_compute; reflexivity|].
  split; [reflexivity|]. vm_compute. auto.
Qed.

(** A call that returns false leaves the memory, the DMIs and the notifications as they were - in every state, for every
    address and size, wrapping or empty. *)
Lemma poke_loop_false : forall k f (P : node -> Prop), (forall s a b s' , P s -> f s a b = (s', Done false) -> False) ->
  (forall s a b s', P s -> f s a b = (s', Done true) -> P s') ->
  forall fuel (s : node) a e buf s', P s -> poke_loop fuel k f s a e buf = (s', Done false) -> False.
Proof.
  intros k f P HF HP. induction fuel as [|n IH]; intros s a e buf s' Ps E; cbn [poke_loop] in E; [discriminate|].
  destruct (e <=? _).
  - destruct (_ <? _); [discriminate|]. eapply HF; eauto.
  - destruct (_ <? _); [discriminate|]. destruct (f s a _) as [s1 [[|]| | | |]] eqn:F; try discriminate.
    + eapply IH; [|exact E]. eapply HP; eauto.
    + eapply HF; eauto.
Qed.
Lemma obj_write_false : forall sh s a b s', obj_write sh s a b = (s', Done false) -> False.
Proof. intros sh s a b s' E. unfold obj_write in E. destruct (snd (mem_write sh (n_mem s) a b)); discriminate. Qed.
Lemma raw_write_false : forall d s a b s', raw_write d s a b = (s', Done false) -> False.
Proof.
  intros d s a b s' E. unfold raw_write in E. destruct (negb _); [discriminate|]. destruct (find_line _ _); [|discriminate].
  destruct (_ <? _); discriminate.
Qed.

Theorem C60_refused : forall sh s o s' x, istep sh s o = (s', Done x) -> x = RBool false \/ x = RBytes None \/ x = RDmi None ->
  n_mem s' = n_mem s /\ n_dmi s' = n_dmi s /\ n_noti s' = n_noti s.
Proof.
  intros sh s o s' x E HX.
  destruct o as [addr size|addr buf|addr size|addr buf|addr size| | |key addr size|key addr buf|key addr size|key addr buf];
    cbn [istep] in E.
  - unfold node_read in E. destruct (spans _ _ _).
    { unfold out in E. cbn [fst snd obind] in E. injection E as <- _. auto. }
    destruct (negb _). { unfold out in E. cbn [fst snd obind] in E. injection E as <- _. auto. }
    destruct (obj_read sh (count_read s) addr size) as [[l|]| | | |]; unfold out in E; cbn [fst snd obind] in E; try discriminate.
    + injection E as _ <-. destruct HX as [X|[X|X]]; discriminate.
    + injection E as <- _. auto.
  - unfold node_write in E. destruct (spans _ _ _).
    { unfold out in E. cbn [fst snd obind] in E. injection E as <- _. auto. }
    destruct (negb (in_window _ _ _ _)). { unfold out in E. cbn [fst snd obind] in E. injection E as <- _. auto. }
    destruct (negb (n_wobs _)).
    { destruct (obj_write sh (count_write s) addr buf) as [s1 [[|]| | | |]] eqn:F; unfold out in E; cbn [fst snd obind] in E; try discriminate.
      - injection E as _ <-. destruct HX as [X|[X|X]]; discriminate.
      - exfalso. eapply obj_write_false; eauto. }
    destruct (node_peek _ _ _ _) as [[l|]| | | |]; unfold out in E; cbn [fst snd obind] in E; try discriminate.
    2:{ injection E as <- _. auto. }
    destruct (obj_write sh (count_write s) addr buf) as [s1 [[|]| | | |]] eqn:F; cbn [fst snd obind] in E; try discriminate.
    + injection E as _ <-. destruct HX as [X|[X|X]]; discriminate.
    + exfalso. eapply obj_write_false; eauto.
  - unfold out in E. injection E as <- _. auto.
  - unfold node_poke, try_poke in E. destruct (negb _). { unfold out in E. cbn [fst snd obind] in E. injection E as <- _. auto. }
    destruct (poke_loop _ _ _ _ _ _ _) as [s1 [[|]| | | |]] eqn:F; unfold out in E; cbn [fst snd obind] in E; try discriminate.
    + injection E as _ <-. destruct HX as [X|[X|X]]; discriminate.
    + exfalso. eapply (poke_loop_false _ _ (fun _ => True)); [| |exact I|exact F]; [|auto].
      intros s0 a b s0' _ W. eapply obj_write_false; eauto.
  - unfold get_dmi in E. destruct (spans _ _ _). { unfold out in E. cbn [fst snd obind] in E. injection E as <- _. auto. }
    destruct (find_dmi _ _). { unfold out in E. cbn [fst snd obind] in E. injection E as <- _. auto. }
    destruct (get_line _ _ _) as [[a' y]| | | |]; unfold out in E; cbn [fst snd obind] in E; try discriminate.
    destruct (_ <=? _) in E; cbn [fst snd obind] in E; [discriminate|]. injection E as _ <-. destruct HX as [X|[X|X]]; discriminate.
  - injection E as _ <-. destruct HX as [X|[X|X]]; discriminate.
  - unfold out in E. destruct (snd (node_clean sh s)); try discriminate. injection E as _ <-. destruct HX as [X|[X|X]]; discriminate.
  - destruct (find_dmi _ _); [|discriminate]. unfold out in E. injection E as <- _. auto.
  - destruct (find_dmi _ _) as [d|]; [|discriminate]. unfold dmi_write in E.
    destruct (negb (d_valid d)). { unfold out in E. cbn [fst snd obind] in E. injection E as <- _. auto. }
    destruct (spans _ _ _). { unfold out in E. cbn [fst snd obind] in E. injection E as <- _. auto. }
    destruct (negb _). { unfold out in E. cbn [fst snd obind] in E. injection E as <- _. auto. }
    destruct (raw_write d s addr buf) as [s1 [[|]| | | |]] eqn:F; unfold out in E; cbn [fst snd obind] in E; try discriminate.
    + injection E as _ <-. destruct HX as [X|[X|X]]; discriminate.
    + exfalso. eapply raw_write_false; eauto.
  - destruct (find_dmi _ _); [|discriminate]. unfold out in E. injection E as <- _. auto.
  - destruct (find_dmi _ _) as [d|]; [|discriminate]. unfold dmi_poke, try_poke in E.
    destruct (negb _). { unfold out in E. cbn [fst snd obind] in E. injection E as <- _. auto. }
    destruct (poke_loop _ _ _ _ _ _ _) as [s1 [[|]| | | |]] eqn:F; unfold out in E; cbn [fst snd obind] in E; try discriminate.
    + injection E as _ <-. destruct HX as [X|[X|X]]; discriminate.
    + exfalso. eapply (poke_loop_false _ _ (fun _ => True)); [| |exact I|exact F]; [|auto].
      intros s0 a b s0' _ W. eapply raw_write_false; eauto.
Qed.
Print Assumptions C60_refused.

(** A write across two blocks and a poke past the end are refused. *)
Example C60_refused_ex : exists s, node_make 4 32 204 1 true true true = Done s /\
  snd (istep (fun _ => None) s (IWrite 15 [1; 2])) = Done (RBool false) /\
  snd (istep (fun _ => None) s (IPoke 31 [1; 2])) = Done (RBool false) /\
  snd (istep (fun _ => None) s (IRead 8 9)) = Done (RBytes None).
Proof. eexists. split; [vm_compute; reflexivity|]. vm_compute. auto. Qed.

(** After any history, a peek of any range inside the memory, however many blocks it crosses, returns for each byte what a
    peek of that byte returns; a read of a range inside a block returns the same as the peek. *)
Theorem C60_peek_partial : forall sh k total fill fsz free robs wobs s ops s' l addr size,
  node_make k total fill fsz free robs wobs = Done s -> total < 2 ^ 64 -> fill < 2 ^ 64 -> sh_ok sh fsz fill -> Forall iop_ok ops ->
  irun sh s ops = Some (s', l) -> 0 < size -> addr + size <= total ->
  exists bs, snd (istep sh s' (IPeek addr size)) = Done (RBytes (Some bs)) /\ N.of_nat (length bs) = size /\
    (forall i, (i < length bs)%nat -> snd (istep sh s' (IPeek (addr + N.of_nat i) 1)) = Done (RBytes (Some [nth i bs 0]))) /\
    (addr mod 2 ^ k + size <= 2 ^ k -> snd (istep sh s' (IRead addr size)) = Done (RBytes (Some bs))).
Proof.
  intros sh k total fill fsz free robs wobs s ops s' l addr size H HT HF HS HO HR H0 HA.
  destruct (node_facts sh k total fill fsz free robs wobs s H HT HF HS) as [Hk [HM [HZ [HF' N]]]].
  pose proof (irun_ok sh k total fill fsz free robs wobs Hk HT HM HZ HF' HS ops s fresh N HO) as R.
  rewrite HR in R. destruct (sp_run k total fill fsz free robs wobs fresh ops) as [[p l']|]; [|contradiction].
  destruct R as [_ N']. change (2 ^ 64) with big in HT.
  assert (ST : forall o, iop_ok o -> snd (istep sh s' o) = snd (sp_step k total fill fsz free robs wobs p o)).
  { intros o Ho. apply (step_ok sh k total fill fsz free robs wobs Hk HT HM HZ HF' HS s' p o N' Ho). }
  exists (sread k fill fsz (p_m p) addr size).
  assert (B : addr + size < big) by (clear - HA HT; lia).
  split; [|split; [|split]].
  - rewrite ST by (split; [exact H0|exact B]). cbn [sp_step snd]. apply N.leb_le in HA. rewrite HA. reflexivity.
  - rewrite sread_len. apply N2Nat.id.
  - rewrite sread_len. intros i Hi.
    assert (B1 : addr + N.of_nat i + 1 <= total) by (clear - HA Hi; lia).
    rewrite ST by (split; [reflexivity|]; change (2 ^ 64) with big; clear - B1 HT; lia).
    cbn [sp_step snd]. apply N.leb_le in B1. rewrite B1. do 3 f_equal. rewrite sread_nth by exact Hi.
    unfold now, sread. change (N.to_nat 1) with 1%nat. cbn [seq map]. change (N.of_nat 0) with 0. rewrite N.add_0_r. reflexivity.
  - intros HB. rewrite ST by (split; [exact H0|exact B]). cbn [sp_step]. unfold one_block.
    apply N.leb_le in HB, HA. rewrite HB, HA. reflexivity.
Qed.
Print Assumptions C60_peek_partial.

(** A peek over three blocks, the middle one never written. *)
Example C60_peek_partial_ex : exists s s' l, node_make 2 12 258 2 true false false = Done s /\
  irun (fun _ => None) s [IPoke 3 [7]; IWrite 9 [8]] = Some (s', l) /\ Forall iop_ok [IPoke 3 [7]; IWrite 9 [8]] /\
  snd (istep (fun _ => None) s' (IPeek 1 10)) = Done (RBytes (Some [1; 2; 7; 2; 1; 2; 1; 2; 8; 2])).
Proof.
  eexists _, _, _. split; [vm_compute; reflexivity|]. split; [vm_compute; reflexivity|]. split; [repeat constructor|].
  vm_compute. reflexivity.
Qed.

(** The calls that write [buf] at [addr]. *)
Definition writes (addr : N) (buf : list N) (o : iop) : Prop :=
  o = IWrite addr buf \/ o = IPoke addr buf \/ (exists key, o = DWrite key addr buf) \/ (exists key, o = DPoke key addr buf).
(** The calls that leave the bytes [addr, addr + n) alone. *)
Definition leaves (addr n : N) (o : iop) : Prop :=
  match o with
  | IWrite a b | IPoke a b | DWrite _ a b | DPoke _ a b => a + N.of_nat (length b) <= addr \/ addr + n <= a
  | IClean => False
  | _ => True
  end.

Lemma swrite_out : forall m a b x, x < a \/ a + N.of_nat (length b) <= x -> swrite m a b x = m x.
Proof.
  intros m a b x H. unfold swrite. destruct (N.leb_spec a x); cbn [andb]; [|reflexivity].
  destruct (N.ltb_spec x (a + N.of_nat (length b))); [lia|reflexivity].
Qed.
Lemma leaves_keep : forall k total fill fsz free robs wobs addr n o p x, leaves addr n o -> addr <= x -> x < addr + n ->
  p_m (fst (sp_step k total fill fsz free robs wobs p o)) x = p_m p x.
Proof.
  intros k total fill fsz free robs wobs addr n o p x HL H1 H2.
  destruct o as [a z|a b|a z|a b|a z| | |key a z|key a b|key a z|key a b]; cbn [leaves sp_step] in *.
  - destruct (_ && _); reflexivity.
  - destruct (_ && _); cbn [fst p_m]; [|reflexivity]. apply swrite_out. lia.
  - reflexivity.
  - destruct (_ <=? _); cbn [fst p_m put]; [|reflexivity]. apply swrite_out. lia.
  - destruct (negb _); [reflexivity|]. destruct (p_d p _); [reflexivity|]. destruct (_ <? _); reflexivity.
  - reflexivity.
  - contradiction.
  - destruct (p_d p key) as [[v l]|]; [|reflexivity]. destruct (_ && _); reflexivity.
  - destruct (p_d p key) as [[v l]|]; [|reflexivity]. destruct (_ && _); [|reflexivity]. destruct l; [|reflexivity].
    cbn [fst p_m put]. apply swrite_out. lia.
  - destruct (p_d p key) as [[v l]|]; [|reflexivity]. destruct (_ && _); reflexivity.
  - destruct (p_d p key) as [[v l]|]; [|reflexivity]. destruct (_ && _); [|reflexivity]. destruct l; [|reflexivity].
    cbn [fst p_m put]. apply swrite_out. lia.
Qed.
Lemma leaves_run : forall k total fill fsz free robs wobs addr n ops p p' l, Forall (leaves addr n) ops ->
  sp_run k total fill fsz free robs wobs p ops = Some (p', l) -> forall x, addr <= x -> x < addr + n -> p_m p' x = p_m p x.
Proof.
  intros k total fill fsz free robs wobs addr n. induction ops as [|o r IH]; intros p p' l HL HR x H1 H2; cbn [sp_run] in HR.
  - injection HR as <- _. reflexivity.
  - apply Forall_cons_iff in HL. destruct HL as [L1 L2].
    pose proof (leaves_keep k total fill fsz free robs wobs addr n o p x L1 H1 H2) as K.
    destruct (sp_step k total fill fsz free robs wobs p o) as [p1 y]. cbn [fst] in K.
    destruct y; try discriminate; (destruct (sp_run k total fill fsz free robs wobs p1 r) as [[p2 l2]|] eqn:E2; [|discriminate];
      injection HR as <- _; rewrite (IH p1 p2 l2 L2 E2 x H1 H2); exact K).
Qed.
Lemma sp_run_app : forall k total fill fsz free robs wobs a b p, sp_run k total fill fsz free robs wobs p (a ++ b) =
  match sp_run k total fill fsz free robs wobs p a with
  | Some (p1, l1) => match sp_run k total fill fsz free robs wobs p1 b with Some (p2, l2) => Some (p2, l1 ++ l2) | None => None end
  | None => None
  end.
Proof.
  intros k total fill fsz free robs wobs. induction a as [|o r IH]; intros b p; cbn [app sp_run].
  - destruct (sp_run _ _ _ _ _ _ _ p b) as [[p2 l2]|]; reflexivity.
  - destruct (sp_step k total fill fsz free robs wobs p o) as [p1 y]. destruct y; try reflexivity;
      (rewrite IH; destruct (sp_run _ _ _ _ _ _ _ p1 r) as [[p2 l2]|]; [|reflexivity];
       destruct (sp_run _ _ _ _ _ _ _ p2 b) as [[p3 l3]|]; reflexivity).
Qed.
Lemma sp_run_len : forall k total fill fsz free robs wobs a p p' l, sp_run k total fill fsz free robs wobs p a = Some (p', l) ->
  length l = length a.
Proof.
  intros k total fill fsz free robs wobs. induction a as [|o r IH]; intros p p' l H; cbn [sp_run] in H.
  - injection H as _ <-. reflexivity.
  - destruct (sp_step k total fill fsz free robs wobs p o) as [p1 y]. destruct y; try discriminate;
      (destruct (sp_run _ _ _ _ _ _ _ p1 r) as [[p2 l2]|] eqn:E; [|discriminate]; injection H as _ <-; cbn; f_equal; eauto).
Qed.
Lemma swrite_in : forall m a b i, (i < length b)%nat -> swrite m a b (a + N.of_nat i) = Some (nth i b 0).
Proof.
  intros m a b i H. unfold swrite. destruct (N.leb_spec a (a + N.of_nat i)); [|lia].
  destruct (N.ltb_spec (a + N.of_nat i) (a + N.of_nat (length b))); [|lia]. cbn [andb]. do 2 f_equal. lia.
Qed.

(** Bytes written by a call that returned true - through the interface or through a DMI, as a write or as a poke - are what
    a peek of that range returns as long as no call since then wrote into the range or cleaned the memory. *)
Theorem C60_keeps_partial : forall sh k total fill fsz free robs wobs s before w after s' l addr buf,
  node_make k total fill fsz free robs wobs = Done s -> total < 2 ^ 64 -> fill < 2 ^ 64 -> sh_ok sh fsz fill ->
  Forall iop_ok (before ++ w :: after) -> irun sh s (before ++ w :: after) = Some (s', l) ->
  writes addr buf w -> nth_error l (length before) = Some (Done (RBool true)) -> Forall (leaves addr (N.of_nat (length buf))) after ->
  snd (istep sh s' (IPeek addr (N.of_nat (length buf)))) = Done (RBytes (Some buf)).
Proof.
  intros sh k total fill fsz free robs wobs s before w after s' l addr buf H HT HF HS HO HR HW HL HV.
  destruct (node_facts sh k total fill fsz free robs wobs s H HT HF HS) as [Hk [HM [HZ [HF' N]]]].
  pose proof (irun_ok sh k total fill fsz free robs wobs Hk HT HM HZ HF' HS _ s fresh N HO) as R.
  rewrite HR in R. rewrite sp_run_app in R.
  destruct (sp_run k total fill fsz free robs wobs fresh before) as [[p1 l1]|] eqn:E1; [|contradiction].
  pose proof (sp_run_len _ _ _ _ _ _ _ _ _ _ _ E1) as LE.
  assert (N1 : exists s1 q1, irun sh s before = Some (s1, q1) /\ NI k total fill fsz free robs wobs s1 p1).
  { pose proof (irun_ok sh k total fill fsz free robs wobs Hk HT HM HZ HF' HS before s fresh N) as Q.
    rewrite E1 in Q. apply Forall_app in HO. destruct HO as [HO1 _]. specialize (Q HO1).
    destruct (irun sh s before) as [[s1 q1]|]; [|contradiction]. destruct Q as [_ Q]. eauto. }
  destruct N1 as [s1 [q1 [_ N1]]].
  cbn [sp_run] in R. destruct (sp_step k total fill fsz free robs wobs p1 w) as [p2 y] eqn:E2.
  assert (HOw : iop_ok w) by (apply Forall_app in HO; destruct HO as [_ HO]; apply Forall_cons_iff in HO; apply HO).
  assert (Y : y = Done (RBool true) /\ exists l2 p3, sp_run k total fill fsz free robs wobs p2 after = Some (p3, l2) /\
    NI k total fill fsz free robs wobs s' p3).
  { destruct (sp_run k total fill fsz free robs wobs p2 after) as [[p3 l2]|] eqn:E3.
    - destruct y; try contradiction; destruct R as [-> R]; rewrite nth_error_app2 in HL by (rewrite LE; apply Nat.le_refl);
        rewrite LE, Nat.sub_diag in HL; cbn [nth_error] in HL; injection HL as HL; subst; eauto. all: try discriminate.
    - destruct y; contradiction. }
  destruct Y as [-> [l2 [p3 [E3 N3]]]].
  assert (A : 0 < N.of_nat (length buf) /\ addr + N.of_nat (length buf) < big).
  { destruct HW as [->|[->|[[key ->]|[key ->]]]]; exact HOw. }
  destruct A as [A0 A1].
  assert (W : p_m p2 = swrite (p_m p1) addr buf /\ addr + N.of_nat (length buf) <= total).
  { destruct HW as [->|[->|[[key ->]|[key ->]]]]; cbn [sp_step] in E2.
    - destruct (one_block _ _ _) in E2; cbn [andb] in E2; [|discriminate].
      destruct (N.leb_spec (addr + N.of_nat (length buf)) total) as [C|C]; [|discriminate]. injection E2 as <-. auto.
    - destruct (N.leb_spec (addr + N.of_nat (length buf)) total) as [C|C]; [|discriminate]. injection E2 as <-. auto.
    - pose proof (ni_d _ _ _ _ _ _ _ _ _ N1 key) as ND. unfold dmi_inv in ND.
      destruct (find_dmi key (n_dmi s1)) as [d|]; destruct (p_d p1 key) as [[v b]|]; try contradiction; try discriminate.
      destruct ND as [_ [_ [_ [_ [D5 _]]]]].
      destruct v; cbn [andb] in E2; [|discriminate].
      destruct (N.leb_spec key addr) as [C|C]; cbn [andb] in E2; [|discriminate].
      destruct (N.leb_spec (addr + N.of_nat (length buf)) (key + 2 ^ k)) as [D|D]; [|discriminate].
      destruct b; [|discriminate]. injection E2 as <-. split; [reflexivity|]. clear - D D5. lia.
    - pose proof (ni_d _ _ _ _ _ _ _ _ _ N1 key) as ND. unfold dmi_inv in ND.
      destruct (find_dmi key (n_dmi s1)) as [d|]; destruct (p_d p1 key) as [[v b]|]; try contradiction; try discriminate.
      destruct ND as [_ [_ [_ [_ [D5 _]]]]].
      destruct (N.leb_spec key addr) as [C|C]; cbn [andb] in E2; [|discriminate].
      destruct (N.leb_spec (addr + N.of_nat (length buf)) (key + 2 ^ k)) as [D|D]; [|discriminate].
      destruct b; [|discriminate]. injection E2 as <-. split; [reflexivity|]. clear - D D5. lia. }
  destruct W as [W1 W2].
  destruct (step_ok sh k total fill fsz free robs wobs Hk HT HM HZ HF' HS s' p3 (IPeek addr (N.of_nat (length buf))) N3) as [S1 _].
  { split; [exact A0|exact A1]. }
  rewrite S1. cbn [sp_step snd]. apply N.leb_le in W2. rewrite W2. do 3 f_equal. unfold now.
  apply nth_ext with 0 0; [rewrite sread_len; apply Nat2N.id|].
  rewrite sread_len, Nat2N.id. intros i Hi. rewrite sread_nth by (rewrite Nat2N.id; exact Hi). unfold content.
  rewrite (leaves_run k total fill fsz free robs wobs addr (N.of_nat (length buf)) after p2 p3 l2 HV E3).
  - rewrite W1, swrite_in by exact Hi. reflexivity.
  - clear. lia.
  - clear - Hi. lia.
Qed.
Print Assumptions C60_keeps_partial.

(** A write through a DMI next to other accesses, read back through the interface. *)
Example C60_keeps_partial_ex : exists s s' l, node_make 4 32 204 1 true false false = Done s /\
  let before := [IGet 4 1] in let w := DWrite 0 4 [1; 2] in let after := [IPoke 6 [9; 9; 9; 9; 9; 9; 9; 9; 9; 9; 9; 9]; IWrite 3 [5]; IInval] in
  Forall iop_ok (before ++ w :: after) /\ irun (fun _ => None) s (before ++ w :: after) = Some (s', l) /\
  writes 4 [1; 2] w /\ nth_error l 1 = Some (Done (RBool true)) /\ Forall (leaves 4 2) after /\
  snd (istep (fun _ => None) s' (IPeek 4 2)) = Done (RBytes (Some [1; 2])).
Proof.
  eexists _, _, _. split; [vm_compute; reflexivity|]. cbv zeta. split; [repeat constructor|].
  split; [vm_compute; reflexivity|]. split; [right; right; left; eauto|]. split; [reflexivity|]. split.
  - repeat constructor; cbn; lia.
  - vm_compute. reflexivity.
Qed.

(** Pieces that follow one another from [a]. *)
Fixpoint in_a_row (a : N) (l : list (N * list N)) : Prop :=
  match l with [] => True | (x, b) :: r => x = a /\ in_a_row (a + N.of_nat (length b)) r end.
(** An implementer of tryPoke_ that notes what it is asked. *)
Definition noting (l : list (N * list N)) (a : N) (b : list N) : list (N * list N) * outcome bool := (l ++ [(a, b)], Done true).

Lemma pieces : forall k e, k <= 30 -> e + 2 ^ k <= big ->
  forall fuel a l buf, a < e -> N.of_nat (length buf) = e - a -> (e - 1) / 2 ^ k - a / 2 ^ k < N.of_nat fuel ->
  exists q, poke_loop fuel k noting l a e buf = (l ++ q, Done true) /\ in_a_row a q /\ concat (map snd q) = buf /\
    Forall (fun x => snd x <> [] /\ fst x mod 2 ^ k + N.of_nat (length (snd x)) <= 2 ^ k) q.
Proof.
  intros k e Hk HE. induction fuel as [|n IH]; intros a l buf HA HL HU; [lia|]. cbn [poke_loop].
  pose proof (LP k) as P. pose proof (split_L k a) as SA. pose proof (mod_L k a) as MA.
  rewrite next_block by (try exact Hk; lia).
  destruct (N.leb_spec e ((a / 2 ^ k + 1) * 2 ^ k)) as [C|C].
  - rewrite sub_w_le by lia. destruct (N.ltb_spec (N.of_nat (length buf)) (e - a)); [lia|].
    rewrite firstn_all2 by lia. exists [(a, buf)]. split; [reflexivity|]. cbn [in_a_row map concat snd fst]. rewrite app_nil_r.
    split; [auto|]. split; [reflexivity|]. constructor; [|constructor]. cbn [fst snd]. split; [|lia].
    apply pos_len. lia.
  - rewrite sub_w_le by lia. destruct (N.ltb_spec (N.of_nat (length buf)) ((a / 2 ^ k + 1) * 2 ^ k - a)); [lia|].
    set (z := (a / 2 ^ k + 1) * 2 ^ k - a) in *.
    assert (ZL : length (firstn (N.to_nat z) buf) = N.to_nat z) by (rewrite firstn_length; lia).
    unfold noting at 1. assert (DE : (a / 2 ^ k + 1) * 2 ^ k / 2 ^ k = a / 2 ^ k + 1) by (apply N.div_mul; lia).
    destruct (IH ((a / 2 ^ k + 1) * 2 ^ k) (l ++ [(a, firstn (N.to_nat z) buf)]) (skipn (N.to_nat z) buf)) as [q [Q1 [Q2 [Q3 Q4]]]].
    + exact C.
    + rewrite skipn_length. unfold z. lia.
    + rewrite DE.
      assert (a / 2 ^ k + 1 <= (e - 1) / 2 ^ k).
      { apply N.div_le_lower_bound; [lia|]. rewrite N.mul_comm. lia. }
      lia.
    + exists ((a, firstn (N.to_nat z) buf) :: q). rewrite Q1, <- app_assoc. split; [reflexivity|].
      cbn [in_a_row map concat snd fst]. rewrite ZL, Q3, firstn_skipn. split; [split; [reflexivity|]|split; [reflexivity|]].
      * replace (a + N.of_nat (N.to_nat z)) with ((a / 2 ^ k + 1) * 2 ^ k) by (unfold z; lia). exact Q2.
      * constructor; [|exact Q4]. cbn [fst snd]. rewrite ZL. split; [|unfold z; lia].
        apply pos_len. rewrite ZL. unfold z. lia.
Qed.

(** Whatever implements the interface, tryPoke hands it the bytes in consecutive non-empty pieces, none of which crosses a
    block boundary, for every power-of-two block size and aligned window. *)
Theorem C60_pieces : forall k lo hi addr buf, k <= 30 -> lo mod 2 ^ k = 0 -> hi mod 2 ^ k = 0 -> hi < 2 ^ 64 ->
  buf <> [] -> lo <= addr -> addr + N.of_nat (length buf) <= hi ->
  exists q, try_poke k lo hi noting [] addr buf = (q, Done true) /\ in_a_row addr q /\ concat (map snd q) = buf /\
    Forall (fun x => snd x <> [] /\ fst x mod 2 ^ k + N.of_nat (length (snd x)) <= 2 ^ k) q.
Proof.
  intros k lo hi addr buf Hk HL HH HB HN H1 H2. pose proof (len_pos buf HN) as H0.
  pose proof (aligned_top k Hk hi HB HH) as TP. change (2 ^ 64) with big in HB.
  unfold try_poke. rewrite in_window_eq by (clear - H2 HB; lia).
  pose proof H1 as H1'. pose proof H2 as H2'. apply N.leb_le in H1', H2'. rewrite H1', H2'. cbn [andb negb].
  rewrite w64_small by (clear - H2 HB; lia). apply (pieces k (addr + N.of_nat (length buf)) Hk).
  - clear - H2 TP. lia.
  - clear - H0. lia.
  - clear. lia.
  - apply rounds_enough; [exact Hk|exact HL|exact H1|clear - H0; lia|exact H2].
Qed.
Print Assumptions C60_pieces.

Example C60_pieces_ex : try_poke 2 8 20 noting [] 10 [1; 2; 3; 4; 5; 6; 7; 8; 9] =
  ([(10, [1; 2]); (12, [3; 4; 5; 6]); (16, [7; 8; 9])], Done true).
Proof. vm_compute. reflexivity. Qed.

(** "Data in memory is not expected to be modified upon an illegal poke" (db 489): an implementer that refuses the second
    of two blocks has had the first poked before tryPoke returns false. *)
Theorem C60_poke_stops_refuted : exists (f : list (N * list N) -> N -> list N -> list (N * list N) * outcome bool) q,
  (forall l a b, a <> 4 -> f l a b = noting l a b) /\ (forall l b, f l 4 b = (l, Done false)) /\
  try_poke 2 0 8 f [] 2 [1; 2; 3; 4] = (q, Done false) /\ q = [(2, [1; 2])].
Proof.
  exists (fun l a b => if a =? 4 then (l, Done false) else noting l a b). eexists. split; [|split; [|split]].
  - intros l a b H. destruct (N.eqb_spec a 4); [contradiction|reflexivity].
  - intros l b. reflexivity.
  - vm_compute. reflexivity.
  - reflexivity.
Qed.
Print Assumptions C60_poke_stops_refuted.

(** The throwing calls return exactly when the trying ones succeed, and leave the same state. *)
Theorem C60_throwing : forall sh s addr size buf,
  (forall l, snd (node_read_x sh s addr size) = Done l <-> snd (node_read sh s addr size) = Done (Some l)) /\
  (snd (node_write_x sh s addr buf) = Done tt <-> snd (node_write sh s addr buf) = Done true) /\
  (forall l, node_peek_x sh s addr size = Done l <-> node_peek sh s addr size = Done (Some l)) /\
  (snd (node_poke_x sh s addr buf) = Done tt <-> snd (node_poke sh s addr buf) = Done true) /\
  fst (node_read_x sh s addr size) = fst (node_read sh s addr size) /\
  fst (node_write_x sh s addr buf) = fst (node_write sh s addr buf) /\
  fst (node_poke_x sh s addr buf) = fst (node_poke sh s addr buf).
Proof.
  intros sh s addr size buf. unfold node_read_x, node_write_x, node_peek_x, node_poke_x, or_throw. cbn [fst snd].
  split; [|split; [|split; [|split]]].
  - intros l. destruct (snd (node_read sh s addr size)) as [[x|]| | | |]; cbn [obind];
      try destruct (size =? 0); split; intros E; try discriminate; try (injection E as <-; reflexivity).
  - destruct (snd (node_write sh s addr buf)) as [[|]| | | |]; cbn [obind];
      try destruct (Nat.eqb _ 0); split; intros E; try discriminate; reflexivity.
  - intros l. destruct (node_peek sh s addr size) as [[x|]| | | |]; cbn [obind];
      split; intros E; try discriminate; try (injection E as <-; reflexivity).
  - destruct (snd (node_poke sh s addr buf)) as [[|]| | | |]; cbn [obind]; split; intros E; try discriminate; reflexivity.
  - auto.
Qed.
Print Assumptions C60_throwing.
Example C60_throwing_ex : exists s, node_make 4 32 204 1 true true true = Done s /\
  snd (node_read_x (fun _ => None) s 15 1) = Done [204] /\ snd (node_read_x (fun _ => None) s 15 2) = Refused /\
  node_peek_x (fun _ => None) s 15 2 = Done [204; 204] /\ node_peek_x (fun _ => None) s 31 2 = Refused.
Proof. eexists. split; [vm_compute; reflexivity|]. vm_compute. auto. Qed.

Lemma dead_stays : forall k total fill fsz free robs wobs o p key, (exists b, p_d p key = Some (false, b)) ->
  exists b, p_d (fst (sp_step k total fill fsz free robs wobs p o)) key = Some (false, b).
Proof.
  intros k total fill fsz free robs wobs o p key [b HB].
  destruct o as [a z|a bf|a z|a bf|a z| | |q a z|q a bf|q a z|q a bf]; cbn [sp_step].
  - destruct (_ && _); cbn; eauto.
  - destruct (_ && _); cbn; eauto.
  - cbn; eauto.
  - destruct (_ <=? _); cbn; eauto.
  - destruct (negb _); [cbn; eauto|]. destruct (p_d p (a / 2 ^ k * 2 ^ k)) eqn:E; [cbn; eauto|].
    destruct (a <? total); cbn [fst p_d]; [|eauto].
    destruct (N.eqb_spec key (a / 2 ^ k * 2 ^ k)) as [->|Ne]; [congruence|eauto].
  - cbn [fst p_d]. rewrite HB. cbn. eauto.
  - cbn [fst p_d]. rewrite HB. cbn. eauto.
  - destruct (p_d p q) as [[v l]|]; [|cbn; eauto]. destruct (_ && _); cbn; eauto.
  - destruct (p_d p q) as [[v l]|]; [|cbn; eauto]. destruct (_ && _); [|cbn; eauto]. destruct l; cbn; eauto.
  - destruct (p_d p q) as [[v l]|]; [|cbn; eauto]. destruct (_ && _); cbn; eauto.
  - destruct (p_d p q) as [[v l]|]; [|cbn; eauto]. destruct (_ && _); [|cbn; eauto]. destruct l; cbn; eauto.
Qed.
Lemma dead_run : forall k total fill fsz free robs wobs ops p p' l key, (exists b, p_d p key = Some (false, b)) ->
  sp_run k total fill fsz free robs wobs p ops = Some (p', l) -> exists b, p_d p' key = Some (false, b).
Proof.
  intros k total fill fsz free robs wobs. induction ops as [|o r IH]; intros p p' l key HB HR; cbn [sp_run] in HR.
  - injection HR as <- _. exact HB.
  - pose proof (dead_stays k total fill fsz free robs wobs o p key HB) as K.
    destruct (sp_step k total fill fsz free robs wobs p o) as [p1 y]. cbn [fst] in K.
    destruct y; try discriminate; (destruct (sp_run k total fill fsz free robs wobs p1 r) as [[p2 l2]|] eqn:E2; [|discriminate];
      injection HR as <- _; eapply IH; eauto).
Qed.

(** A DMI that has been invalidated cannot be replaced: whatever is called after invalidateAllDMI, asking for the block's
    DMI again returns the same invalid object, and reads through it return false. *)
Theorem C60_dmi_dead_refuted : forall sh k total fill fsz free robs wobs s before addr size after s' l,
  node_make k total fill fsz free robs wobs = Done s -> total < 2 ^ 64 -> fill < 2 ^ 64 -> sh_ok sh fsz fill ->
  Forall iop_ok (before ++ [IGet addr size; IInval] ++ after) ->
  irun sh s (before ++ [IGet addr size; IInval] ++ after) = Some (s', l) ->
  forall key, nth_error l (length before) = Some (Done (RDmi (Some key))) ->
  snd (istep sh s' (IGet addr size)) = Done (RDmi (Some key)) /\
  forall a n, acc_ok a n -> snd (istep sh s' (DRead key a n)) = Done (RBytes None).
Proof.
  intros sh k total fill fsz free robs wobs s before addr size after s' l H HT HF HS HO HR key HL.
  destruct (node_facts sh k total fill fsz free robs wobs s H HT HF HS) as [Hk [HM [HZ [HF' N]]]].
  pose proof (irun_ok sh k total fill fsz free robs wobs Hk HT HM HZ HF' HS _ s fresh N HO) as R.
  rewrite HR in R. rewrite sp_run_app in R.
  destruct (sp_run k total fill fsz free robs wobs fresh before) as [[p1 l1]|] eqn:E1; [|contradiction].
  pose proof (sp_run_len _ _ _ _ _ _ _ _ _ _ _ E1) as LE.
  assert (HG : acc_ok addr size).
  { apply Forall_app in HO. destruct HO as [_ HO]. apply Forall_cons_iff in HO. apply HO. }
  cbn [app sp_run] in R. destruct (sp_step k total fill fsz free robs wobs p1 (IGet addr size)) as [p2 y] eqn:E2.
  cbn [sp_step] in R.
  match type of R with context [sp_run _ _ _ _ _ _ _ ?q after] => set (p3 := q) in R end.
  assert (X : y = Done (RDmi (Some key)) /\ exists p4 l4, sp_run k total fill fsz free robs wobs p3 after = Some (p4, l4) /\
     NI k total fill fsz free robs wobs s' p4).
  { destruct (sp_run k total fill fsz free robs wobs p3 after) as [[p4 l4]|].
    - destruct y; try contradiction; destruct R as [-> R]; rewrite nth_error_app2 in HL by (rewrite LE; apply Nat.le_refl);
        rewrite LE, Nat.sub_diag in HL; cbn [nth_error] in HL; injection HL as HL; subst; eauto. all: try discriminate.
    - destruct y; contradiction. }
  destruct X as [-> [p4 [l4 [E4 N4]]]].
  assert (Q : one_block k addr size = true /\ key = addr / 2 ^ k * 2 ^ k /\ exists c, p_d p2 key = Some c).
  { cbn [sp_step] in E2. destruct (one_block k addr size); cbn [negb] in E2; [|discriminate]. split; [reflexivity|].
    destruct (p_d p1 (addr / 2 ^ k * 2 ^ k)) as [c|] eqn:PD.
    - injection E2 as <- <-. eauto.
    - destruct (addr <? total); [|discriminate]. injection E2 as <- <-. split; [reflexivity|]. cbn [p_d]. rewrite N.eqb_refl. eauto. }
  destruct Q as [Q1 [Q2 [c Q3]]].
  assert (DD : exists b, p_d p4 key = Some (false, b)).
  { eapply dead_run; [|exact E4]. unfold p3. cbn [p_d]. rewrite Q3. cbn. eauto. }
  destruct DD as [b DD]. split.
  - destruct (step_ok sh k total fill fsz free robs wobs Hk HT HM HZ HF' HS s' p4 (IGet addr size) N4 HG) as [S1 _].
    rewrite S1. cbn [sp_step]. rewrite Q1. cbn [negb]. rewrite <- Q2, DD. reflexivity.
  - intros a n Han.
    destruct (step_ok sh k total fill fsz free robs wobs Hk HT HM HZ HF' HS s' p4 (DRead key a n) N4 Han) as [S1 _].
    rewrite S1. cbn [sp_step]. rewrite DD. cbn [andb]. reflexivity.
Qed.
Print Assumptions C60_dmi_dead_refuted.
Example C60_dmi_dead_refuted_ex : exists s s' l, node_make 4 32 204 1 true false false = Done s /\
  irun (fun _ => None) s ([IWrite 3 [1]] ++ [IGet 3 1; IInval] ++ [IWrite 3 [2]; IGet 3 1; DRead 0 3 1]) = Some (s', l) /\
  l = [Done (RBool true); Done (RDmi (Some 0)); Done RUnit; Done (RBool true); Done (RDmi (Some 0)); Done (RBytes None)].
Proof. eexists _, _, _. split; [vm_compute; reflexivity|]. split; vm_compute; reflexivity. Qed.

(** An invalidated DMI still peeks and pokes. *)
Theorem C60_dmi_poke_refuted : exists s s' l, node_make 4 32 204 1 true false false = Done s /\
  irun (fun _ => None) s [IGet 3 1; IInval; DWrite 0 3 [5]; DPoke 0 3 [6]; DPeek 0 3 1; IRead 3 1] = Some (s', l) /\
  l = [Done (RDmi (Some 0)); Done RUnit; Done (RBool false); Done (RBool true); Done (RBytes (Some [6])); Done (RBytes (Some [6]))].
Proof. eexists _, _, _. split; [vm_compute; reflexivity|]. split; vm_compute; reflexivity. Qed.
Print Assumptions C60_dmi_poke_refuted.

(** Once the memory object has been cleaned - which is also what restoring a snapshot does first - a DMI handed out before
    says it is valid and using it touches deleted memory. *)
Theorem C60_dmi_after_clean_refuted : exists s s' l d, node_make 4 32 204 1 true false false = Done s /\
  irun (fun _ => None) s [IGet 3 1; IClean; IWrite 3 [5]] = Some (s', l) /\
  find_dmi 0 (n_dmi s') = Some d /\ d_valid d = true /\ snd (istep (fun _ => None) s' (DRead 0 3 1)) = Undefined /\
  snd (istep (fun _ => None) s' (DWrite 0 3 [1])) = Undefined.
Proof.
  eexists _, _, _, _. split; [vm_compute; reflexivity|]. split; [vm_compute; reflexivity|]. split; [vm_compute; reflexivity|].
  vm_compute. auto.
Qed.
Print Assumptions C60_dmi_after_clean_refuted.

(** A write through a DMI is missing from the next delta checkpoint: a snapshot is saved, the same byte is written once
    through the DMI and once through the interface, and only the latter leaves anything in the delta. *)
Theorem C60_dmi_checkpoint_refuted : exists s s1 l1 a1 t1 s2 l2 a2 t2 s3 l3 a3 t3,
  node_make 4 32 204 1 true false false = Done s /\
  irun (fun _ => None) s [IWrite 3 [1]; IGet 3 1] = Some (s1, l1) /\
  ad_save vector_storage true v_new (n_mem s1) = Done (a1, t1) /\
  irun (fun _ => None) (with_mem s1 a1) [DWrite 0 3 [2]; IRead 3 1] = Some (s2, l2) /\
  l2 = [Done (RBool true); Done (RBytes (Some [2]))] /\
  ad_save vector_storage false v_new (n_mem s2) = Done (a2, t2) /\ length (v_data t2) = 1%nat /\
  irun (fun _ => None) (with_mem s1 a1) [IWrite 3 [2]; IRead 3 1] = Some (s3, l3) /\ l3 = l2 /\
  ad_save vector_storage false v_new (n_mem s3) = Done (a3, t3) /\ length (v_data t3) = 2%nat.
Proof.
  do 13 eexists. split; [vm_compute; reflexivity|]. split; [vm_compute; reflexivity|]. split; [vm_compute; reflexivity|].
  split; [vm_compute; reflexivity|]. split; [reflexivity|]. split; [vm_compute; reflexivity|]. split; [reflexivity|].
  split; [vm_compute; reflexivity|]. split; [reflexivity|]. split; [vm_compute; reflexivity|]. reflexivity.
Qed.
Print Assumptions C60_dmi_checkpoint_refuted.

(** getDMI outside the window raises an exception instead of returning nullptr (mo 320-321). *)
Theorem C60_dmi_outside_refuted : exists s, node_make 4 32 204 1 true false false = Done s /\
  snd (istep (fun _ => None) s (IGet 32 1)) = Asserted.
Proof. eexists. split; [vm_compute; reflexivity|]. vm_compute. reflexivity. Qed.
Print Assumptions C60_dmi_outside_refuted.

(** Address and size that wrap pass the checks: a poke of eight bytes four bytes below the top of the address space, through
    the DMI of block 0, writes in front of the block; through the interface it raises an exception instead of returning
    false; a read with a size close to 2^64 copies that many bytes out of a block. *)
Theorem C60_wrap_refuted : exists s s' l, node_make 4 32 204 1 true false false = Done s /\
  irun (fun _ => None) s [IGet 0 1] = Some (s', l) /\
  snd (istep (fun _ => None) s' (DPoke 0 (2 ^ 64 - 4) [1; 2; 3; 4; 5; 6; 7; 8])) = Undefined /\
  snd (istep (fun _ => None) s' (IPoke (2 ^ 64 - 4) [1; 2; 3; 4; 5; 6; 7; 8])) = Asserted /\
  snd (istep (fun _ => None) s' (IRead 8 (2 ^ 64 - 4))) = Undefined.
Proof.
  eexists _, _, _. split; [vm_compute; reflexivity|]. split; [vm_compute; reflexivity|]. vm_compute. auto.
Qed.
Print Assumptions C60_wrap_refuted.

(** Empty accesses: refused at the start of a block, accepted elsewhere; a peek of nothing at the end of the window raises an
    exception. *)
Theorem C60_empty_refuted : exists s, node_make 4 32 204 1 true false false = Done s /\
  snd (istep (fun _ => None) s (IRead 16 0)) = Done (RBytes None) /\ snd (istep (fun _ => None) s (IRead 17 0)) = Done (RBytes (Some [])) /\
  snd (node_read_x (fun _ => None) s 16 0) = Asserted /\
  snd (istep (fun _ => None) s (IPeek 32 0)) = Asserted /\ snd (istep (fun _ => None) s (IPeek 33 0)) = Done (RBytes None).
Proof. eexists. split; [vm_compute; reflexivity|]. vm_compute. auto 10. Qed.
Print Assumptions C60_empty_refuted.
