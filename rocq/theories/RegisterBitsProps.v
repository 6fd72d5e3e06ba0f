(** C34: RegisterBits operations are those of an n-byte integer. *)
From Coq Require Import List NArith ZArith Arith Bool Lia.
From Verif Require Import Words BitArrayModel BitArrayProps RegisterBitsModel.
Import ListNotations.
Open Scope N_scope.

(* ---------------- bytes and words ---------------- *)
Lemma rd_wval : forall l, rd l = wval 8 l.
Proof. unfold rd. induction l as [|a l IH]; cbn [le_value wval fold_right]; [auto|rewrite IH; reflexivity]. Qed.
Lemma wr_len : forall s v, length (wr s v) = s.
Proof. induction s; intros; cbn [wr length]; auto. Qed.
Lemma wr_ok : forall s v, wok 8 (wr s v).
Proof. induction s; intros; cbn [wr]; constructor; [apply N.mod_lt; discriminate|apply IHs]. Qed.
Lemma wr_val : forall s v, wval 8 (wr s v) = v mod 2 ^ (8 * N.of_nat s).
Proof.
  induction s; intros v; cbn [wr wval fold_right].
  - change (8 * N.of_nat 0) with 0. rewrite N.pow_0_r, N.mod_1_r. auto.
  - fold (wval 8 (wr s (v / 256))). rewrite IHs. rewrite Nat2N.inj_succ, N.mul_succ_r, (N.add_comm (8 * N.of_nat s) 8), N.pow_add_r.
    change (2 ^ 8) with 256. rewrite N.mod_mul_r by (discriminate || (apply N.pow_nonzero; discriminate)). reflexivity.
Qed.
Lemma wval_firstn_skipn : forall w k l, (k <= length l)%nat ->
  wval w l = wval w (firstn k l) + 2 ^ (w * N.of_nat k) * wval w (skipn k l).
Proof.
  intros w k l H. rewrite <- (firstn_skipn k l) at 1. rewrite wval_app, firstn_length, Nat.min_l by auto. auto.
Qed.
Lemma wok_firstn : forall w k l, wok w l -> wok w (firstn k l).
Proof. intros w k l H. revert k. induction H; intros [|k]; cbn [firstn]; constructor; auto. apply IHForall. Qed.
Lemma wok_skipn : forall w k l, wok w l -> wok w (skipn k l).
Proof. intros w k l H. revert k. induction H; intros [|k]; cbn [skipn]; try constructor; auto. Qed.
Lemma words_spec : forall n l, length l = (8 * n)%nat -> wok 8 l ->
  length (words n l) = n /\ wok 64 (words n l) /\ wval 64 (words n l) = wval 8 l.
Proof.
  induction n; intros l E H.
  - destruct l; [|discriminate]. cbn. repeat split; auto. constructor.
  - cbn [words length]. destruct (IHn (skipn 8 l)) as [A [B C]]; [rewrite skipn_length; lia|apply wok_skipn; auto|].
    pose proof (wval_lt 8 (firstn 8 l) (wok_firstn 8 8 l H)) as LT. rewrite firstn_length, Nat.min_l in LT by lia.
    change (8 * N.of_nat 8) with 64 in LT. split; [auto|]. split.
    + constructor; [rewrite rd_wval; auto|auto].
    + cbn [wval fold_right]. fold (wval 64 (words n (skipn 8 l))). rewrite C, rd_wval, (wval_firstn_skipn 8 8 l) by lia. reflexivity.
Qed.
Lemma unwords_spec : forall ws, wok 64 ws -> length (unwords ws) = (8 * length ws)%nat /\ wok 8 (unwords ws) /\ wval 8 (unwords ws) = wval 64 ws.
Proof.
  induction ws as [|a ws IH]; intros H; [repeat split; constructor|]. inversion H as [|? ? H1 H2]; subst.
  destruct (IH H2) as [A [B C]]. unfold unwords in *. cbn [map concat]. split; [|split].
  - rewrite app_length, wr_len, A. cbn [length]. lia.
  - apply Forall_app. split; [apply wr_ok|auto].
  - rewrite wval_app, wr_len, wr_val, C. change (8 * N.of_nat 8) with 64. rewrite N.mod_small by auto. reflexivity.
Qed.
Lemma small_cases : forall n, small n = true -> (n = 1 \/ n = 2 \/ n = 4 \/ n = 8)%nat.
Proof. intros n. unfold small. rewrite !orb_true_iff, !Nat.eqb_eq. lia. Qed.

(** The sizes registers have: 1, 2, 4, 8 and multiples of 8 bytes. *)
Definition size_ok (n : nat) : Prop := small n = true \/ (8 < n /\ n mod 8 = 0)%nat.
Lemma big_not_small : forall n, (8 < n)%nat -> small n = false /\ (8 <? n)%nat = true.
Proof. intros n H. split; [|apply Nat.ltb_lt; auto]. destruct (small n) eqn:E; auto. apply small_cases in E. lia. Qed.

(** | and & (and |=) of operands of one size. *)
Theorem C34_logic : forall a b, wok 8 a -> wok 8 b -> length b = length a -> size_ok (length a) ->
  exists r1 r2, rb_merge N.lor a b = Some r1 /\ rb_merge N.land a b = Some r2
   /\ length r1 = length a /\ length r2 = length a /\ wok 8 r1 /\ wok 8 r2
   /\ wval 8 r1 = N.lor (wval 8 a) (wval 8 b) /\ wval 8 r2 = N.land (wval 8 a) (wval 8 b).
Proof.
  intros a b HA HB EL SO.
  assert (G : forall f g, (forall x y k, N.testbit (f x y) k = g (N.testbit x k) (N.testbit y k)) -> g false false = false ->
    exists r, rb_merge f a b = Some r /\ length r = length a /\ wok 8 r /\ wval 8 r = f (wval 8 a) (wval 8 b)).
  { intros f g HF G0. assert (FB : forall x y w, x < 2 ^ w -> y < 2 ^ w -> f x y < 2 ^ w).
    { intros x y w Hx Hy. apply small_testbit. intros k Hk. rewrite HF, (testbit_small x w k), (testbit_small y w k); auto. }
    unfold rb_merge. destruct SO as [SM|[B M]].
    - rewrite SM. destruct (Nat.ltb_spec (length b) (length a)); [lia|]. eexists. split; [reflexivity|].
      split; [apply wr_len|]. split; [apply wr_ok|]. rewrite wr_val, !rd_wval, <- EL, firstn_all.
      apply N.mod_small. apply FB; [rewrite EL|]; apply wval_lt; auto.
    - destruct (big_not_small _ B) as [-> ->]. destruct (Nat.eqb_spec (length a mod 8) 0); [|lia]. cbn [negb orb].
      destruct (Nat.ltb_spec (length b) (length a)); [lia|]. eexists. split; [reflexivity|].
      pose proof (Nat.div_mod (length a) 8 ltac:(lia)) as DM. set (q := (length a / 8)%nat) in *.
      destruct (words_spec q a ltac:(lia) HA) as [A1 [A2 A3]]. destruct (words_spec q b ltac:(lia) HB) as [B1 [B2 B3]].
      assert (WZ : wok 64 (ba_zip f (words q a) (words q b))).
      { apply wok_of_nth. intros i Hi. rewrite zip_len in Hi. rewrite zip_nth by lia. apply FB; apply wok_nth; auto. }
      destruct (unwords_spec _ WZ) as [U1 [U2 U3]]. rewrite zip_len in U1. split; [lia|]. split; [auto|]. rewrite U3, <- A3, <- B3.
      apply (wval_bitwise 64 _ _ _ f g); auto; [discriminate|lia|apply zip_len|]. intros i Hi. apply zip_nth; lia. }
  destruct (G N.lor orb N.lor_spec eq_refl) as [r1 [R1 [R2 [R3 R4]]]].
  destruct (G N.land andb N.land_spec eq_refl) as [r2 [S1 [S2 [S3 S4]]]].
  exists r1, r2. repeat (split; [assumption|]). assumption.
Qed.
Example C34_logic_ex : rb_merge N.lor [0x0F; 0x30] [0xF0; 0x03] = Some [0xFF; 0x33] /\ size_ok 2 /\ size_ok 16.
Proof. split; [reflexivity|]. split; [left; reflexivity|]. right. split; [lia|reflexivity]. Qed.
Print Assumptions C34_logic.

Theorem C34_not : forall a, wok 8 a -> size_ok (length a) ->
  exists r, rb_not a = Some r /\ length r = length a /\ wok 8 r /\ wval 8 r = 2 ^ (8 * N.of_nat (length a)) - 1 - wval 8 a.
Proof.
  intros a HA SO. unfold rb_not. destruct SO as [SM|[B M]].
  - rewrite SM. eexists. split; [reflexivity|]. split; [apply wr_len|]. split; [apply wr_ok|].
    rewrite wr_val, rd_wval. apply N.mod_small. assert (2 ^ (8 * N.of_nat (length a)) <> 0) by (apply N.pow_nonzero; discriminate). lia.
  - destruct (big_not_small _ B) as [-> ->]. destruct (Nat.eqb_spec (length a mod 8) 0); [|lia]. cbn [negb].
    eexists. split; [reflexivity|]. pose proof (Nat.div_mod (length a) 8 ltac:(lia)) as DM. set (q := (length a / 8)%nat) in *.
    destruct (words_spec q a ltac:(lia) HA) as [A1 [A2 A3]].
    assert (K : forall i, (i < length (words q a))%nat -> nth i (map (fun x => 2 ^ 64 - 1 - x) (words q a)) 0 = 2 ^ 64 - 1 - nth i (words q a) 0).
    { intros i Hi. rewrite (nth_indep _ 0 ((fun x => 2 ^ 64 - 1 - x) 0)) by (rewrite map_length; auto). apply (map_nth (fun x => 2 ^ 64 - 1 - x)). }
    assert (WZ : wok 64 (map (fun x => 2 ^ 64 - 1 - x) (words q a))).
    { apply wok_of_nth. intros i Hi. rewrite map_length in Hi. rewrite K by auto. assert (2 ^ 64 <> 0) by discriminate. lia. }
    destruct (unwords_spec _ WZ) as [U1 [U2 U3]]. rewrite map_length in U1. split; [lia|]. split; [auto|].
    rewrite U3, <- A3. rewrite (wval_compl 64 (words q a)); auto; [|discriminate|apply map_length].
    f_equal. f_equal. f_equal. lia.
Qed.
Example C34_not_ex : rb_not [1; 2; 3; 4; 5; 6; 7; 8; 9; 10; 11; 12; 13; 14; 15; 16]
  = Some [254; 253; 252; 251; 250; 249; 248; 247; 246; 245; 244; 243; 242; 241; 240; 239].
Proof. vm_compute. reflexivity. Qed.
Print Assumptions C34_not.

(* ---------------- shifts ---------------- *)
Lemma shl_loop_slide : forall rem ws, shl_loop rem ws = slide (fun x y => N.lor (u64 (N.shiftl x rem))
   (N.shiftr (N.land y (u64 (N.shiftl (2 ^ 64 - 1) (64 - rem)))) (64 - rem))) 0 ws.
Proof.
  induction ws as [|x r IH]; cbn [shl_loop slide]; [auto|]. rewrite IH. f_equal.
  destruct r; [|auto]. rewrite N.land_0_l, N.shiftr_0_l. auto.
Qed.
Lemma shr_loop_slide : forall rem m ws, shr_loop rem m ws = slide (fun x y => N.lor (N.shiftr x rem)
   (u64 (N.shiftl (N.land y m) (64 - rem)))) 0 ws.
Proof.
  induction ws as [|x r IH]; cbn [shr_loop slide]; [auto|]. rewrite IH. f_equal.
  destruct r; [|auto]. rewrite N.land_0_l, N.shiftl_0_l. auto.
Qed.
Lemma u64_bit : forall x j, j < 64 -> N.testbit (u64 x) j = N.testbit x j.
Proof. intros. apply N.mod_pow2_bits_low. auto. Qed.
Lemma u64_ok : forall x, u64 x < 2 ^ 64.
Proof. intros. apply N.mod_lt. discriminate. Qed.
Lemma ones_bit : forall j, j < 64 -> N.testbit (2 ^ 64 - 1) j = true.
Proof. intros j H. change (2 ^ 64 - 1) with (N.ones 64). apply N.ones_spec_low. auto. Qed.
Lemma shiftr_small : forall x k w, x < 2 ^ w -> N.shiftr x k < 2 ^ w.
Proof.
  intros. rewrite N.shiftr_div_pow2. apply N.le_lt_trans with x; auto. apply N.div_le_upper_bound; [apply N.pow_nonzero; discriminate|].
  assert (2 ^ k <> 0) by (apply N.pow_nonzero; discriminate). nia.
Qed.

Lemma words_shl_spec : forall ws k, wok 64 ws -> length (words_shl ws k) = length ws /\ wok 64 (words_shl ws k)
  /\ wval 64 (words_shl ws k) = N.shiftl (wval 64 ws) k mod 2 ^ (64 * N.of_nat (length ws)).
Proof.
  intros ws k H. unfold words_shl. set (d := N.to_nat (k / 64)). set (n := length ws).
  set (f := repeat 0 (Nat.min d n) ++ firstn (n - d) ws).
  assert (LF : length f = n) by (unfold f; rewrite app_length, repeat_length, firstn_length; fold n; lia).
  assert (NF : forall i, (i < n)%nat -> nth i f 0 = if (d <=? i)%nat then nth (i - d) ws 0 else 0).
  { intros i Hi. unfold f. destruct (Nat.leb_spec d i).
    - rewrite app_nth2, repeat_length by (rewrite repeat_length; lia). rewrite nth_firstn by lia. f_equal. lia.
    - rewrite app_nth1 by (rewrite repeat_length; lia). apply nth_repeat0. }
  assert (OF : wok 64 f).
  { apply wok_of_nth. intros i Hi. rewrite NF by lia. destruct (d <=? i)%nat; [apply wok_nth; auto|reflexivity]. }
  set (rem := k mod 64). pose proof (N.mod_lt k 64 ltac:(discriminate)) as ML. fold rem in ML.
  assert (R : length (shl_micro f k) = n /\ wok 64 (shl_micro f k) /\ forall i j, (i < n)%nat -> j < 64 -> N.testbit (nth i (shl_micro f k) 0) j =
     if j <? rem then (if (i =? 0)%nat then false else N.testbit (nth (i - 1) f 0) (j + 64 - rem)) else N.testbit (nth i f 0) (j - rem)).
  { unfold shl_micro. fold rem d. rewrite LF. destruct (N.eqb_spec rem 0) as [Z|NZ].
    - split; [auto|]. split; [auto|]. intros i j Hi Hj. rewrite Z. destruct (N.ltb_spec j 0); [lia|]. now rewrite N.sub_0_r.
    - destruct (Nat.leb_spec n d).
      + assert (Z0 : forall i, nth i f 0 = 0).
        { intros i. destruct (Nat.lt_ge_cases i n); [rewrite NF by auto; destruct (Nat.leb_spec d i); [lia|auto]|apply nth_overflow; lia]. }
        split; [auto|]. split; [auto|]. intros i j Hi Hj. rewrite !Z0, !N.bits_0. destruct (j <? rem), (i =? 0)%nat; auto.
      + rewrite shl_loop_slide. set (g := fun x y => _).
        assert (LG : length (rev (slide g 0 (rev f))) = n) by (rewrite rev_length, slide_len, rev_length; auto).
        assert (NG : forall i, (i < n)%nat -> nth i (rev (slide g 0 (rev f))) 0 = g (nth i f 0) (if (i =? 0)%nat then 0 else nth (i - 1) f 0)).
        { intros i Hi. rewrite rev_nth; rewrite ?slide_len, ?rev_length; [|lia].
          rewrite slide_nth by (rewrite rev_length; lia). rewrite rev_nth by lia. f_equal.
          - f_equal. lia.
          - destruct (Nat.eqb_spec i 0).
            + apply nth_overflow. rewrite rev_length. lia.
            + rewrite rev_nth by lia. f_equal. lia. }
        split; [auto|]. split.
        * apply wok_of_nth. intros i Hi. rewrite NG by lia. apply lor_small; [apply u64_ok|]. apply shiftr_small.
          apply land_small. destruct (i =? 0)%nat; [reflexivity|apply wok_nth; auto].
        * intros i j Hi Hj. rewrite NG by auto. unfold g. rewrite N.lor_spec, u64_bit, N.shiftr_spec', N.land_spec by auto.
          destruct (N.ltb_spec j rem).
          -- rewrite N.shiftl_spec_low by auto. cbn [orb]. rewrite u64_bit by lia. rewrite N.shiftl_spec_high' by lia.
             rewrite ones_bit by lia. rewrite andb_true_r. destruct (i =? 0)%nat; [apply N.bits_0|]. f_equal. lia.
          -- rewrite N.shiftl_spec_high' by auto.
             assert (F : N.testbit (if (i =? 0)%nat then 0 else nth (i - 1) f 0) (j + (64 - rem)) = false).
             { destruct (i =? 0)%nat; [apply N.bits_0|]. apply (testbit_small _ 64); [apply wok_nth; auto|lia]. }
             rewrite F. cbn [andb]. apply orb_false_r. }
  destruct R as [R1 [R2 R3]]. split; [auto|]. split; [auto|]. apply wval_shl; auto; [discriminate|].
  intros i j Hi Hj. rewrite R3 by auto. fold rem d. destruct (j <? rem).
  - destruct (Nat.eqb_spec i 0).
    + destruct (Nat.ltb_spec d i); [lia|auto].
    + rewrite NF by lia. destruct (Nat.leb_spec d (i - 1)), (Nat.ltb_spec d i); try lia; [|apply N.bits_0]. f_equal. f_equal. lia.
  - rewrite NF by auto. destruct (d <=? i)%nat; [auto|apply N.bits_0].
Qed.

Lemma shr_mask_ones : forall x86 rem m, shr_mask x86 rem = Some m -> m = 2 ^ 64 - 1.
Proof.
  intros x86 rem m. unfold shr_mask, int_sar.
  assert (S : forall c, (0 <= c)%Z -> Z.shiftr (-1) c = (-1)%Z).
  { intros c Hc. apply Z.bits_inj'. intros i Hi. rewrite Z.shiftr_spec, !Z.bits_m1 by lia. auto. }
  destruct (64 - rem <? 32); [|destruct x86; [|discriminate]]; cbn [option_map]; rewrite S by apply N2Z.is_nonneg; intros E; injection E as <-; reflexivity.
Qed.
Lemma words_shr_spec : forall x86 ws k, wok 64 ws ->
  match words_shr x86 ws k with
  | Some r => length r = length ws /\ wok 64 r /\ wval 64 r = N.shiftr (wval 64 ws) k
  | None => (length ws < N.to_nat (k / 64))%nat \/ (x86 = false /\ 0 < k mod 64 <= 32)
  end.
Proof.
  intros x86 ws k H. unfold words_shr. set (d := N.to_nat (k / 64)). set (n := length ws). set (rem := k mod 64).
  pose proof (N.mod_lt k 64 ltac:(discriminate)) as ML. fold rem in ML.
  set (f := skipn d ws ++ repeat 0 (Nat.min d n)).
  assert (LF : length f = n) by (unfold f; rewrite app_length, repeat_length, skipn_length; fold n; lia).
  assert (NF : forall i, nth i f 0 = nth (i + d) ws 0).
  { intros i. unfold f. destruct (Nat.lt_ge_cases i (n - d)).
    - rewrite app_nth1 by (rewrite skipn_length; fold n; lia). rewrite nth_skipn. f_equal. lia.
    - rewrite app_nth2 by (rewrite skipn_length; fold n; lia). rewrite nth_repeat0, nth_overflow by (fold n; lia). auto. }
  assert (OF : wok 64 f) by (apply wok_of_nth; intros i Hi; rewrite NF; apply wok_nth; auto).
  assert (DONE : rem = 0 \/ (n <= d)%nat -> length f = n /\ wok 64 f /\ wval 64 f = N.shiftr (wval 64 ws) k).
  { intros Q. split; [auto|]. split; [auto|]. apply wval_shr; auto; [discriminate|]. fold rem d.
    intros i j Hi Hj. rewrite NF. destruct Q as [Z|Z].
    - rewrite Z, N.add_0_r. destruct (N.ltb_spec j 64); [auto|lia].
    - rewrite !(nth_overflow ws) by (fold n; lia). rewrite !N.bits_0. now destruct (j + rem <? 64). }
  destruct (Nat.eqb_spec d n); [apply DONE; right; lia|].
  destruct (N.eqb_spec rem 0); [apply DONE; auto|].
  destruct (Nat.ltb_spec n d); [auto|].
  destruct (shr_mask x86 rem) as [m|] eqn:EM.
  2:{ right. unfold shr_mask, int_sar in EM. destruct (N.ltb_spec (64 - rem) 32); [discriminate|]. destruct x86; [discriminate|].
      split; [auto|lia]. }
  apply shr_mask_ones in EM. subst m. rewrite shr_loop_slide. set (g := fun x y => _).
  assert (EF : firstn (n - d) f = skipn d ws).
  { unfold f. rewrite firstn_app, skipn_length. fold n. rewrite Nat.sub_diag. cbn [firstn]. rewrite app_nil_r. apply firstn_all2.
    rewrite skipn_length. fold n. lia. }
  rewrite EF. set (r := slide g 0 (skipn d ws) ++ skipn (n - d) f).
  assert (LS : length (slide g 0 (skipn d ws)) = (n - d)%nat) by (rewrite slide_len, skipn_length; auto).
  assert (LR : length r = n) by (unfold r; rewrite app_length, LS, skipn_length; lia).
  assert (NR : forall i, (i < n)%nat -> nth i r 0 = if (i <? n - d)%nat then g (nth (i + d) ws 0) (nth (i + d + 1) ws 0) else 0).
  { intros i Hi. unfold r. destruct (Nat.ltb_spec i (n - d)).
    - rewrite app_nth1 by lia. rewrite slide_nth by (rewrite skipn_length; fold n; lia). rewrite !nth_skipn. f_equal; f_equal; lia.
    - rewrite app_nth2 by lia. rewrite nth_skipn, NF. apply nth_overflow. fold n. lia. }
  assert (OR : wok 64 r).
  { apply wok_of_nth. intros i Hi. rewrite NR by lia. destruct (i <? n - d)%nat; [|reflexivity].
    apply lor_small; [apply shiftr_small, wok_nth; auto|apply u64_ok]. }
  split; [auto|]. split; [auto|]. apply wval_shr; auto; [discriminate|]. intros i j Hi Hj. fold rem d. rewrite NR by auto.
  destruct (Nat.ltb_spec i (n - d)).
  - unfold g. rewrite N.lor_spec, N.shiftr_spec', u64_bit by auto. destruct (N.ltb_spec (j + rem) 64).
    + rewrite N.shiftl_spec_low by lia. apply orb_false_r.
    + rewrite (testbit_small (nth (i + d) ws 0) 64 (j + rem)); [|apply wok_nth; auto|auto]. cbn [orb].
      rewrite N.shiftl_spec_high' by lia. rewrite N.land_spec, ones_bit, andb_true_r by lia. f_equal. lia.
  - rewrite !(nth_overflow ws) by (fold n; lia). rewrite !N.bits_0. now destruct (j + rem <? 64).
Qed.

(** x << k is the product by 2^k modulo the width. For 1-, 2-, 4- and 8-byte registers an amount of at least the
    width may be undefined. *)
Theorem C34_shift_left_partial : forall a k, wok 8 a -> size_ok (length a) ->
  match rb_shl a k with
  | Some r => length r = length a /\ wok 8 r /\ wval 8 r = (wval 8 a * 2 ^ k) mod 2 ^ (8 * N.of_nat (length a))
  | None => small (length a) = true /\ 8 * N.of_nat (length a) <= k
  end.
Proof.
  intros a k HA SO. unfold rb_shl. destruct SO as [SM|[B M]].
  - rewrite SM. unfold word_shl. destruct (N.ltb_spec k (if (length a =? 8)%nat then 64 else 32)) as [L|L].
    + destruct ((length a <? 4)%nat && (2 ^ 32 <=? N.shiftl (rd a) k)) eqn:E; cbn [option_map].
      * split; [auto|]. apply andb_true_iff in E. destruct E as [E1 E2]. apply Nat.ltb_lt in E1. apply N.leb_le in E2.
        destruct (N.le_gt_cases (8 * N.of_nat (length a)) k) as [|G]; auto. exfalso.
        rewrite rd_wval, N.shiftl_mul_pow2 in E2. pose proof (wval_lt 8 a HA) as LT.
        assert (Q : wval 8 a * 2 ^ k < 2 ^ (8 * N.of_nat (length a)) * 2 ^ (8 * N.of_nat (length a))).
        { apply N.mul_lt_mono; auto. apply N.pow_lt_mono_r; lia. }
        rewrite <- N.pow_add_r in Q. assert (2 ^ (8 * N.of_nat (length a) + 8 * N.of_nat (length a)) <= 2 ^ 32); [|lia].
        apply N.pow_le_mono_r; [discriminate|]. apply small_cases in SM. lia.
      * split; [apply wr_len|]. split; [apply wr_ok|]. rewrite wr_val, rd_wval, N.shiftl_mul_pow2. auto.
    + cbn [option_map]. split; [auto|]. apply small_cases in SM. destruct (Nat.eqb_spec (length a) 8); lia.
  - destruct (big_not_small _ B) as [-> ->]. destruct (Nat.eqb_spec (length a mod 8) 0); [|lia]. cbn [negb].
    pose proof (Nat.div_mod (length a) 8 ltac:(lia)) as DM. set (q := (length a / 8)%nat) in *.
    destruct (words_spec q a ltac:(lia) HA) as [A1 [A2 A3]]. destruct (words_shl_spec (words q a) k A2) as [S1 [S2 S3]].
    destruct (unwords_spec _ S2) as [U1 [U2 U3]]. split; [lia|]. split; [auto|]. rewrite U3, S3, A3, A1, N.shiftl_mul_pow2.
    f_equal. f_equal. lia.
Qed.
Example C34_shift_left_ex : rb_shl [1; 2; 3; 4; 5; 6; 7; 8; 9; 10; 11; 12; 13; 14; 15; 16] 68
  = Some [0; 0; 0; 0; 0; 0; 0; 0; 16; 32; 48; 64; 80; 96; 112; 128] /\ rb_shl [0x81; 0x01] 12 = Some [0; 0x10].
Proof. split; vm_compute; reflexivity. Qed.
Print Assumptions C34_shift_left_partial.

(** x >> k is the quotient by 2^k. Undefined amounts: at least the width for 1 to 8 bytes; a word count exceeding the
    register's; and, without the processor's shift semantics, a bit remainder from 1 to 32 for wide registers. *)
Theorem C34_shift_right_partial : forall x86 a k, wok 8 a -> size_ok (length a) ->
  match rb_shr x86 a k with
  | Some r => length r = length a /\ wok 8 r /\ wval 8 r = wval 8 a / 2 ^ k
  | None => 8 * N.of_nat (length a) <= k \/ (x86 = false /\ (8 < length a)%nat /\ 0 < k mod 64 <= 32)
  end.
Proof.
  intros x86 a k HA SO. unfold rb_shr. destruct SO as [SM|[B M]].
  - rewrite SM. unfold word_shr. destruct (N.ltb_spec k (if (length a =? 8)%nat then 64 else 32)) as [L|L]; cbn [option_map].
    + split; [apply wr_len|]. split; [apply wr_ok|]. rewrite wr_val, rd_wval, <- N.shiftr_div_pow2.
      apply N.mod_small. apply shiftr_small. apply wval_lt. auto.
    + left. apply small_cases in SM. destruct (Nat.eqb_spec (length a) 8); lia.
  - destruct (big_not_small _ B) as [-> ->]. destruct (Nat.eqb_spec (length a mod 8) 0); [|lia]. cbn [negb].
    pose proof (Nat.div_mod (length a) 8 ltac:(lia)) as DM. set (q := (length a / 8)%nat) in *.
    destruct (words_spec q a ltac:(lia) HA) as [A1 [A2 A3]]. pose proof (words_shr_spec x86 (words q a) k A2) as S.
    destruct (words_shr x86 (words q a) k) as [r|]; cbn [option_map].
    + destruct S as [S1 [S2 S3]]. destruct (unwords_spec _ S2) as [U1 [U2 U3]]. split; [lia|]. split; [auto|].
      rewrite U3, S3, A3, N.shiftr_div_pow2. auto.
    + destruct S as [S|[S1 S2]]; [left|right; auto]. rewrite A1 in S. pose proof (N.div_mod k 64 ltac:(discriminate)) as K. rewrite M in DM. clearbody q. revert S K. generalize (k / 64), (k mod 64). intros; lia.
Qed.
Example C34_shift_right_ex : rb_shr true [1; 2; 3; 4; 5; 6; 7; 8; 0x10; 0x32; 0; 0; 0; 0; 0; 0xF0] 68
  = Some [0x21; 0x03; 0; 0; 0; 0; 0; 0x0F; 0; 0; 0; 0; 0; 0; 0; 0]
  /\ rb_shr false [0; 0; 0; 0; 0; 0; 0; 0; 1; 0; 0; 0; 0; 0; 0; 0] 40 = Some [0; 0; 0; 1; 0; 0; 0; 0; 0; 0; 0; 0; 0; 0; 0; 0].
Proof. split; vm_compute; reflexivity. Qed.
Print Assumptions C34_shift_right_partial.

(** The undefined amounts are real: a 128-bit register shifted right by 1 evaluates an int shift by 63, and one
    shifted right by 193 runs past its words. *)
Theorem C34_shift_right_refuted : forall a k, length a = 16%nat ->
  (k < 128 -> 0 < k mod 64 <= 32 -> (k / 64 < 2) -> rb_shr false a k = None)
  /\ (2 < k / 64 -> k mod 64 <> 0 -> forall x86, rb_shr x86 a k = None).
Proof.
  intros a k E. unfold rb_shr. rewrite E. change (small 16) with false. change (8 <? 16)%nat with true.
  change (16 mod 8)%nat with 0%nat. change (16 / 8)%nat with 2%nat. cbn [negb Nat.eqb].
  assert (L : length (words 2 a) = 2%nat) by reflexivity. unfold words_shr. rewrite L. split.
  - intros K1 K2 K3. destruct (Nat.eqb_spec (N.to_nat (k / 64)) 2); [lia|]. destruct (N.eqb_spec (k mod 64) 0); [lia|].
    destruct (Nat.ltb_spec 2 (N.to_nat (k / 64))); [lia|]. unfold shr_mask, int_sar.
    destruct (N.ltb_spec (64 - k mod 64) 32); [lia|]. reflexivity.
  - intros K1 K2 x86. destruct (Nat.eqb_spec (N.to_nat (k / 64)) 2); [lia|]. destruct (N.eqb_spec (k mod 64) 0); [lia|].
    destruct (Nat.ltb_spec 2 (N.to_nat (k / 64))); [|lia]. reflexivity.
Qed.
Example C34_shift_right_refuted_ex : rb_shr false (repeat 1 16) 1 = None /\ rb_shr true (repeat 1 16) 193 = None.
Proof. split; vm_compute; reflexivity. Qed.
Print Assumptions C34_shift_right_refuted.

(* ---------------- <<= ---------------- *)
Lemma wset_len : forall ws i x, (i < length ws)%nat -> length (wset ws i x) = length ws.
Proof. intros. unfold wset. rewrite app_length, firstn_length. cbn [length]. rewrite skipn_length. lia. Qed.
Lemma wset_nth : forall ws i x j, (i < length ws)%nat -> nth j (wset ws i x) 0 = if (j =? i)%nat then x else nth j ws 0.
Proof.
  intros ws i x j H. unfold wset. destruct (Nat.eqb_spec j i) as [->|NE].
  - rewrite app_nth2, firstn_length, Nat.min_l, Nat.sub_diag by (rewrite ?firstn_length; lia). reflexivity.
  - destruct (Nat.lt_ge_cases j i).
    + rewrite app_nth1 by (rewrite firstn_length; lia). apply nth_firstn. auto.
    + rewrite app_nth2, firstn_length, Nat.min_l by (rewrite ?firstn_length; lia).
      destruct (j - i)%nat as [|m] eqn:E; [lia|]. change (nth m (skipn (S i) ws) 0 = nth j ws 0). rewrite nth_skipn. f_equal. lia.
Qed.
Lemma copy_len : forall d fuel ws s, length (shl_copy ws d s fuel) = length ws.
Proof.
  intros d. induction fuel; intros ws s; cbn [shl_copy]; [auto|]. destruct (Nat.ltb_spec (s + d) (length ws)); [|auto].
  rewrite IHfuel, wset_len; rewrite wset_len; lia.
Qed.
Lemma copy_step : forall ws d s, (s + d < length ws)%nat -> (0 < d)%nat ->
  let ws' := wset (wset ws (s + d) (nth s ws 0)) s 0 in length ws' = length ws /\
  forall j, nth j ws' 0 = if (j =? s)%nat then 0 else if (j =? s + d)%nat then nth s ws 0 else nth j ws 0.
Proof.
  intros ws d s H D. cbn zeta. split; [rewrite wset_len; rewrite wset_len; lia|].
  intros j. rewrite wset_nth by (rewrite wset_len; lia). destruct (j =? s)%nat; auto. apply wset_nth. lia.
Qed.
Lemma copy_keep : forall d fuel ws s i, (0 < d)%nat -> (i < s + d)%nat -> (i < s \/ length ws <= i + d)%nat ->
  nth i (shl_copy ws d s fuel) 0 = nth i ws 0.
Proof.
  intros d. induction fuel; intros ws s i D H1 H2; cbn [shl_copy]; [auto|]. destruct (Nat.ltb_spec (s + d) (length ws)); [|auto].
  destruct (copy_step ws d s H D) as [L N]. rewrite IHfuel by (rewrite ?L; lia). rewrite N.
  destruct (Nat.eqb_spec i s); [lia|]. destruct (Nat.eqb_spec i (s + d)); [lia|auto].
Qed.
Lemma copy_zero : forall d fuel ws s i, (0 < d)%nat -> (s <= i)%nat -> (i + d < length ws)%nat -> (length ws <= fuel + s)%nat ->
  nth i (shl_copy ws d s fuel) 0 = 0.
Proof.
  intros d. induction fuel; intros ws s i D H1 H2 H3; [lia|]. cbn [shl_copy]. destruct (Nat.ltb_spec (s + d) (length ws)); [|lia].
  destruct (copy_step ws d s H D) as [L N]. destruct (Nat.eq_dec i s) as [->|NE].
  - rewrite copy_keep by lia. rewrite N, Nat.eqb_refl. auto.
  - apply IHfuel; lia.
Qed.
Lemma copy_move : forall d fuel ws s i, (0 < d)%nat -> (s + d <= i)%nat -> (i < length ws)%nat -> (i < d + d)%nat ->
  (length ws <= d + d)%nat -> (length ws <= fuel + s)%nat -> nth i (shl_copy ws d s fuel) 0 = nth (i - d) ws 0.
Proof.
  intros d. induction fuel; intros ws s i D H1 H2 H3 H4 H5; [lia|]. cbn [shl_copy]. destruct (Nat.ltb_spec (s + d) (length ws)); [|lia].
  destruct (copy_step ws d s H D) as [L N]. destruct (Nat.eq_dec i (s + d)) as [->|NE].
  - rewrite copy_keep by lia. rewrite N, Nat.eqb_refl. destruct (Nat.eqb_spec (s + d) s); [lia|]. f_equal. lia.
  - rewrite IHfuel by lia. rewrite N. destruct (Nat.eqb_spec (i - d) s); [lia|]. destruct (Nat.eqb_spec (i - d) (s + d)); [lia|auto].
Qed.

Lemma words_len : forall q l, length (words q l) = q.
Proof. induction q; intros l; cbn [words length]; auto. Qed.

(** <<= agrees with << for registers of up to 8 bytes, amounts below 64, and word counts of exactly half the
    register. *)
Theorem C34_shl_assign_partial : forall a k, size_ok (length a) ->
  (length a <= 8)%nat \/ k < 64 \/ (2 * N.to_nat (k / 64) = length a / 8)%nat ->
  rb_shl_in a k = rb_shl a k.
Proof.
  intros a k SO H. unfold rb_shl_in, rb_shl. destruct SO as [SM|[B M]]; [rewrite SM; auto|].
  destruct (big_not_small _ B) as [-> ->]. destruct (Nat.eqb_spec (length a mod 8) 0); [|lia]. cbn [negb]. f_equal. f_equal.
  unfold words_shl_in, words_shl. set (ws := words (length a / 8) a).
  assert (LW : length ws = (length a / 8)%nat) by apply words_len.
  rewrite <- LW in H. set (d := N.to_nat (k / 64)) in *. set (n := length ws) in *. f_equal.
  destruct (Nat.ltb_spec 0 d) as [D|D].
  - assert (E : (2 * d = n)%nat). { destruct H as [H|[H|H]]; [lia| |auto]. assert (k / 64 = 0) by (apply N.div_small; auto). lia. }
    apply nth_ext with (d := 0) (d' := 0).
    + rewrite copy_len, app_length, repeat_length, firstn_length. fold n. lia.
    + intros i Hi. rewrite copy_len in Hi. fold n in Hi. rewrite (Nat.min_l d n) by lia. destruct (Nat.lt_ge_cases i d).
      * rewrite copy_zero by (fold n; lia). rewrite app_nth1 by (rewrite repeat_length; auto). symmetry. apply nth_repeat0.
      * rewrite copy_move by (fold n; lia). rewrite app_nth2, repeat_length by (rewrite repeat_length; auto).
        rewrite nth_firstn by lia. auto.
  - replace d with 0%nat by lia. rewrite Nat.min_0_l, Nat.sub_0_r. cbn [repeat app]. symmetry. apply firstn_all.
Qed.
Example C34_shl_assign_ex : rb_shl_in (map N.of_nat (seq 1 32)) 135 = rb_shl (map N.of_nat (seq 1 32)) 135
  /\ (2 * N.to_nat (135 / 64) = length (map N.of_nat (seq 1 32)) / 8)%nat.
Proof. split; vm_compute; reflexivity. Qed.
Print Assumptions C34_shl_assign_partial.

(** For every other word count the in-place shift is wrong on some register of that size. *)
Theorem C34_shl_assign_refuted : forall n d, (2 <= n)%nat -> (0 < d)%nat -> (2 * d <> n)%nat ->
  exists ws, length ws = n /\ wok 64 ws /\ words_shl_in ws (64 * N.of_nat d) <> words_shl ws (64 * N.of_nat d).
Proof.
  intros n d Hn Hd NE. exists (repeat 1 n). split; [apply repeat_length|].
  split; [apply wok_of_nth; intros i _; assert (R : forall m j, nth j (repeat 1 m) 0 < 2 ^ 64) by (induction m; destruct j; cbn; try reflexivity; apply IHm); apply R|].
  unfold words_shl_in, words_shl, shl_micro.
  assert (E1 : (64 * N.of_nat d) / 64 = N.of_nat d) by (rewrite N.mul_comm, N.div_mul; [auto|discriminate]).
  assert (E2 : (64 * N.of_nat d) mod 64 = 0) by (rewrite N.mul_comm, N.mod_mul; [auto|discriminate]).
  rewrite E1, E2, Nat2N.id, N.eqb_refl, repeat_length. destruct (Nat.ltb_spec 0 d); [|lia].
  assert (R1 : forall m j, (j < m)%nat -> nth j (repeat 1 m) 0 = 1).
  { induction m; intros j Hj; [lia|]. destruct j; cbn [repeat nth]; [auto|apply IHm; lia]. }
  intros C. destruct (Nat.lt_ge_cases (2 * d) n).
  - (* the word at index d is cleared again *)
    assert (X : nth d (shl_copy (repeat 1 n) d 0 n) 0 = 0) by (apply copy_zero; rewrite ?repeat_length; lia).
    rewrite C in X. rewrite app_nth2, repeat_length in X by (rewrite repeat_length; lia).
    rewrite nth_firstn, R1 in X by lia. discriminate.
  - (* the word at index n - d, below d, is never cleared *)
    set (i := (n - d)%nat). assert (X : nth i (shl_copy (repeat 1 n) d 0 n) 0 = 1).
    { rewrite copy_keep; [apply R1; unfold i; lia|lia|unfold i; lia|right; rewrite repeat_length; unfold i; lia]. }
    rewrite C in X. rewrite app_nth1 in X by (rewrite repeat_length; unfold i; lia). rewrite nth_repeat0 in X. discriminate.
Qed.
Example C34_shl_assign_refuted_ex : words_shl_in [1; 2; 3; 4] 64 = [0; 0; 0; 1] /\ words_shl [1; 2; 3; 4] 64 = [0; 1; 2; 3]
  /\ words_shl_in [1; 2; 3; 4] 192 = [0; 2; 3; 1] /\ words_shl_in [1; 2; 3; 4] 256 = [1; 2; 3; 4].
Proof. repeat split; vm_compute; reflexivity. Qed.
Print Assumptions C34_shl_assign_refuted.

(* ---------------- comparison, none, any, access ---------------- *)
(** == compares size and integer; == with an integer of s bytes compares the low s bytes. *)
Theorem C34_equal : forall a b s v, wok 8 a -> wok 8 b ->
  (rb_eq a b = true <-> length a = length b /\ wval 8 a = wval 8 b)
  /\ ((s <= length a)%nat -> rb_eq_int s a v = Some (wval 8 a mod 2 ^ (8 * N.of_nat s) =? v)).
Proof.
  intros a b s v HA HB. split; [apply C33_equal; auto|]. intros H. unfold rb_eq_int.
  destruct (Nat.ltb_spec (length a) s); [lia|]. rewrite rd_wval. f_equal. f_equal.
  rewrite (wval_firstn_skipn 8 s a H). rewrite N.mul_comm, N.mod_add by (apply N.pow_nonzero; discriminate).
  symmetry. apply N.mod_small. pose proof (wval_lt 8 _ (wok_firstn 8 s a HA)) as L. rewrite firstn_length, Nat.min_l in L; auto.
Qed.
Example C34_equal_ex : rb_eq [1; 2] [1; 2] = true /\ rb_eq_int 1 [7; 9] 7 = Some true.
Proof. split; reflexivity. Qed.
Print Assumptions C34_equal.

(** dataAs, set and fill. *)
Theorem C34_access : forall a s v, wok 8 a ->
  rb_as s a = wval 8 a mod 2 ^ (8 * N.of_nat s)
  /\ ((s <= length a)%nat -> exists r, rb_set s a v = Some r /\ length r = length a
        /\ wval 8 r mod 2 ^ (8 * N.of_nat s) = v mod 2 ^ (8 * N.of_nat s)
        /\ wval 8 r / 2 ^ (8 * N.of_nat s) = wval 8 a / 2 ^ (8 * N.of_nat s))
  /\ ((length a < s)%nat -> rb_set s a v = None).
Proof.
  intros a s v HA. assert (P : 2 ^ (8 * N.of_nat s) <> 0) by (apply N.pow_nonzero; discriminate). split; [|split].
  - unfold rb_as. rewrite rd_wval. destruct (Nat.le_gt_cases s (length a)) as [L|L].
    + rewrite (wval_firstn_skipn 8 s a L). rewrite N.mul_comm, N.mod_add by auto. symmetry. apply N.mod_small.
      pose proof (wval_lt 8 _ (wok_firstn 8 s a HA)) as K. rewrite firstn_length, Nat.min_l in K; auto.
    + rewrite firstn_all2 by lia. symmetry. apply N.mod_small. apply N.lt_le_trans with (2 ^ (8 * N.of_nat (length a))); [apply wval_lt; auto|].
      apply N.pow_le_mono_r; [discriminate|lia].
  - intros L. unfold rb_set. destruct (Nat.ltb_spec (length a) s); [lia|]. eexists. split; [reflexivity|].
    split; [rewrite app_length, wr_len, skipn_length; lia|]. rewrite wval_app, wr_len, wr_val.
    assert (M : v mod 2 ^ (8 * N.of_nat s) < 2 ^ (8 * N.of_nat s)) by (apply N.mod_lt; auto).
    rewrite (N.mul_comm (2 ^ (8 * N.of_nat s))), N.mod_add, N.mod_mod, N.div_add, N.div_small, N.add_0_l by auto. split; [auto|].
    rewrite (wval_firstn_skipn 8 s a L). rewrite (N.mul_comm (2 ^ _)), N.div_add, N.div_small, N.add_0_l; auto.
    pose proof (wval_lt 8 _ (wok_firstn 8 s a HA)) as K. rewrite firstn_length, Nat.min_l in K; auto.
  - intros L. unfold rb_set. destruct (Nat.ltb_spec (length a) s); [auto|lia].
Qed.
Example C34_access_ex : rb_as 2 [1; 2; 3; 4] = 513 /\ rb_set 2 [1; 2; 3; 4] 0xAABB = Some [0xBB; 0xAA; 3; 4].
Proof. split; reflexivity. Qed.
Print Assumptions C34_access.

Lemma none_equal : forall a x, bytes_eqb (removelast (x :: a)) (tl (x :: a)) = true <-> Forall (eq x) a.
Proof.
  induction a as [|y a IH]; intros x; [cbn; split; auto|].
  change (removelast (x :: y :: a)) with (x :: removelast (y :: a)). cbn [tl bytes_eqb]. rewrite andb_true_iff, N.eqb_eq.
  specialize (IH y). cbn [tl] in IH. rewrite IH. split.
  - intros [-> H]. constructor; auto.
  - intros H. inversion H; subst. auto.
Qed.
(** none() holds exactly if all bytes are equal: it is true of zero, and any() implies a non-zero register. *)
Theorem C34_none_partial : forall a, wok 8 a -> a <> [] ->
  (rb_none a = Some true <-> exists x, Forall (eq x) a) /\ (wval 8 a = 0 -> rb_none a = Some true)
  /\ (rb_any a = Some true -> wval 8 a <> 0).
Proof.
  intros a HA NE. destruct a as [|x a]; [tauto|].
  assert (E : rb_none (x :: a) = Some true <-> exists y, Forall (eq y) (x :: a)).
  { unfold rb_none. split.
    - intros H. exists x. constructor; auto. apply none_equal. congruence.
    - intros [y H]. inversion H; subst. f_equal. apply none_equal. auto. }
  assert (Z : wval 8 (x :: a) = 0 -> rb_none (x :: a) = Some true).
  { intros H. apply E. exists 0. clear - H. induction (x :: a) as [|y l IH]; constructor; cbn [wval fold_right] in H.
    - lia.
    - apply IH. fold (wval 8 l) in H. lia. }
  split; [auto|]. split; [auto|]. unfold rb_any. intros H C. rewrite (Z C) in H. discriminate.
Qed.
Example C34_none_ex : rb_none [0; 0; 0; 0] = Some true /\ rb_any [0; 1; 0; 0] = Some true.
Proof. split; reflexivity. Qed.
Print Assumptions C34_none_partial.

(** none() is true of non-zero registers too: whenever all bytes are equal, so for every one-byte register. *)
Theorem C34_none_refuted : (forall x, rb_none [x] = Some true /\ rb_any [x] = Some false)
  /\ (forall x n, n <> 0%nat -> rb_none (repeat x n) = Some true).
Proof.
  split; [intros; split; reflexivity|]. intros x n H. destruct n; [congruence|]. cbn [repeat]. unfold rb_none. f_equal.
  apply none_equal. clear. induction n; cbn [repeat]; constructor; auto.
Qed.
Example C34_none_refuted_ex : rb_any [1] = Some false /\ rb_none [255; 255; 255; 255] = Some true.
Proof. split; reflexivity. Qed.
Print Assumptions C34_none_refuted.

(* ---------------- copies ---------------- *)
(** Copying and moving keep the value of owned registers and of constant wrappers. *)
Theorem C34_copy_partial : forall ext l n,
  ro_value ext (ro_copy ext (ro_owned l)) = Some l /\ ro_value ext (ro_move (ro_owned l)) = Some l
  /\ ro_value ext (ro_copy ext (ro_cwrap n)) = Some ext /\ ro_value ext (ro_move (ro_cwrap n)) = Some ext
  /\ ((8 < n)%nat -> ro_value ext (ro_copy ext (ro_wrap n)) = Some ext).
Proof.
  intros ext l n. unfold ro_value, ro_copy, ro_move, ro_owned, ro_cwrap, ro_wrap. cbn [ro_n ro_own ro_local ro_remote ptr_eqb].
  destruct (length l <=? 8)%nat, (Nat.leb_spec n 8); cbn [ptr_eqb ro_remote ro_own]; repeat split; auto; lia.
Qed.
Example C34_copy_ex : ro_value [9] (ro_copy [9] (ro_owned [1; 2])) = Some [1; 2].
Proof. reflexivity. Qed.
Print Assumptions C34_copy_partial.

(** Copying a mutable wrapper of at most 8 bytes, and moving any mutable wrapper, loses the value. *)
Theorem C34_copy_refuted : forall ext n,
  ((n <= 8)%nat -> ro_value ext (ro_copy ext (ro_wrap n)) = None) /\ ro_value ext (ro_move (ro_wrap n)) = None.
Proof.
  intros ext n. unfold ro_value, ro_copy, ro_move, ro_wrap. cbn [ro_n ro_own ro_local ro_remote ptr_eqb].
  destruct (Nat.leb_spec n 8); cbn [ptr_eqb ro_remote ro_own]; split; auto; lia.
Qed.
Example C34_copy_refuted_ex : ro_value [1; 2; 3; 4] (ro_wrap 4) = Some [1; 2; 3; 4] /\ ro_value [1; 2; 3; 4] (ro_copy [1; 2; 3; 4] (ro_wrap 4)) = None.
Proof. split; reflexivity. Qed.
Print Assumptions C34_copy_refuted.
