(* Property C48: address decoding identifies cache blocks. *)
Require Import NArith ZArith Bool Lia ZifyN ZifyBool.
Require Import Verif.MathUtilsModel Verif.MathUtilsProofs Verif.AddrDecodeModel.
Open Scope N_scope.

(* Spec: the block containing an address. *)
Definition same_block (line_sz a b : N) : Prop := a / line_sz = b / line_sz.

(* The geometries for which decoding identifies blocks: line size 2^l equal to the stride, 2^s sets. *)
Definition regular (sz line_sz stride num_ways : N) (kb : bool) (l s : N) : Prop :=
  line_sz = 2 ^ l /\ stride = line_sz /\ 0 < num_ways /\ num_ways < 2 ^ 32 /\
  (if kb then sz * 1024 else sz) = 2 ^ s * (line_sz * num_ways) /\
  (if kb then sz * 1024 else sz) < 2 ^ 64 /\ s < 32 /\ s + l < 64.

Lemma land_pow2_mask a k : N.land a (2 ^ k - 1) = a mod 2 ^ k.
Proof. rewrite <- N.land_ones. f_equal. rewrite N.ones_equiv. lia. Qed.

Lemma regular_decoder sz line_sz stride num_ways kb l s : regular sz line_sz stride num_ways kb l s ->
  make_decoder sz line_sz stride num_ways kb = Some
   {| blk_offset_mask := 2 ^ l - 1; blk_addr_mask := 2 ^ 64 - 1 - (2 ^ l - 1);
      index_mask := 2 ^ s - 1; index_shift := l; tag_shift := s + l |}.
Proof.
  intros (-> & -> & Hw0 & Hw & Hsz & Hov & Hs & Hsl). unfold make_decoder.
  assert (Hl : 2 ^ l < 2 ^ 64) by (apply N.pow_lt_mono_r; lia).
  assert (Hl0 : 2 ^ l <> 0) by (apply N.pow_nonzero; lia).
  assert (Hs0 : 2 ^ s <> 0) by (apply N.pow_nonzero; lia).
  assert (Hs32 : 2 ^ s < 2 ^ 32) by (apply N.pow_lt_mono_r; lia).
  assert (Hp : is_power_of_2 (2 ^ l) = true).
  { apply is_power_of_2_correct; [assumption|]. now exists l. }
  rewrite Hp. cbn [negb].
  assert (Hway : 2 ^ l * num_ways < 2 ^ 64) by nia.
  assert (E1 : (if kb then wrap 64 (sz * 1024) else sz) = 2 ^ s * (2 ^ l * num_ways)).
  { destruct kb; [|assumption]. unfold wrap. now rewrite N.mod_small. }
  rewrite E1. unfold wrap. rewrite (N.mod_small (2 ^ l * num_ways)) by assumption.
  destruct (N.eqb_spec (2 ^ l * num_ways) 0) as [E|E]; [nia|].
  rewrite N.div_mul by assumption. rewrite (N.mod_small (2 ^ s)) by assumption.
  assert (Hsl2 : 2 ^ s * 2 ^ l = 2 ^ (s + l)) by now rewrite N.pow_add_r.
  assert (Hsl3 : 2 ^ (s + l) < 2 ^ 64) by (apply N.pow_lt_mono_r; lia).
  assert (Hsl0 : 2 ^ (s + l) <> 0) by (apply N.pow_nonzero; lia).
  rewrite Hsl2, (N.mod_small (2 ^ (s + l))) by assumption.
  rewrite !floor_log2_64_correct by lia.
  rewrite !N.log2_pow2 by lia.
  f_equal. f_equal.
  - apply N.mod_small. assert (64 < 2 ^ 32) by reflexivity. lia.
  - replace (2 ^ s + (2 ^ 32 - 1)) with ((2 ^ s - 1) + 1 * 2 ^ 32) by lia.
    rewrite N.mod_add by discriminate. apply N.mod_small. lia.
  - apply N.mod_small. assert (64 < 2 ^ 32) by reflexivity. lia.
Qed.

(* For regular geometries two addresses get the same index and tag exactly when they are in the same
   block. *)
Theorem C48_same_block_partial : forall sz line_sz stride num_ways kb l s,
  regular sz line_sz stride num_ways kb l s ->
  exists d, make_decoder sz line_sz stride num_ways kb = Some d /\
  forall a b, a < 2 ^ 64 -> b < 2 ^ 64 ->
   exists ta tb ia ib, calc_tag d a = Some ta /\ calc_tag d b = Some tb /\
     calc_idx d a = Some ia /\ calc_idx d b = Some ib /\ ia < 2 ^ s /\ ib < 2 ^ s /\
     (ta = tb /\ ia = ib <-> same_block line_sz a b).
Proof.
  intros sz line_sz stride num_ways kb l s H. pose proof H as Hreg. apply regular_decoder in H.
  destruct Hreg as (Hline & _ & _ & _ & _ & _ & Hs & Hsl).
  rewrite H. eexists. split; [reflexivity|]. intros a b Ha Hb.
  unfold calc_tag, calc_idx. cbn [tag_shift index_shift index_mask].
  destruct (N.ltb_spec (s + l) 64); [|lia]. destruct (N.ltb_spec l 64); [|lia].
  do 4 eexists. do 4 (split; [reflexivity|]).
  rewrite !land_pow2_mask, !N.shiftr_div_pow2.
  assert (Hs0 : 2 ^ s <> 0) by (apply N.pow_nonzero; lia).
  assert (Hl0 : 2 ^ l <> 0) by (apply N.pow_nonzero; lia).
  assert (Hs32 : 2 ^ s < 2 ^ 32) by (apply N.pow_lt_mono_r; lia).
  assert (W : forall x, wrap 32 (x mod 2 ^ s) = x mod 2 ^ s).
  { intros x. pose proof (N.mod_lt x (2 ^ s) Hs0). apply N.mod_small. lia. }
  rewrite !W. split; [now apply N.mod_lt|]. split; [now apply N.mod_lt|].
  rewrite (N.add_comm s l), N.pow_add_r, <- !N.div_div by assumption.
  unfold same_block. rewrite Hline. split.
  - intros [E1 E2]. rewrite (N.div_mod (a / 2 ^ l) (2 ^ s) Hs0), (N.div_mod (b / 2 ^ l) (2 ^ s) Hs0). congruence.
  - intros ->. auto.
Qed.
Example C48_same_block_ex : regular 32 64 64 8 true 6 6 /\
  match make_decoder 32 64 64 8 true with
  | Some d => calc_tag d 74565 = Some 18 /\ calc_idx d 74565 = Some 13 | None => False end.
Proof. vm_compute. repeat split. Qed.
Print Assumptions C48_same_block_partial.

(* Block address and block offset reassemble the address; the block address is the start of its block.
   Only needs a power-of-two line size (which the constructor asserts). *)
Theorem C48_reassemble : forall sz line_sz stride num_ways kb d, line_sz < 2 ^ 64 ->
  make_decoder sz line_sz stride num_ways kb = Some d ->
  forall a, a < 2 ^ 64 ->
   calc_block_addr d a + calc_block_offset d a = a /\ calc_block_offset d a < line_sz /\
   calc_block_addr d a = a / line_sz * line_sz.
Proof.
  intros sz line_sz stride num_ways kb d Hline H a Ha. unfold make_decoder in H.
  destruct (is_power_of_2 line_sz) eqn:Ep; cbn [negb] in H; [|discriminate].
  destruct (is_power_of_2 stride); cbn [negb] in H; [|discriminate].
  destruct (wrap 64 (line_sz * num_ways) =? 0); [discriminate|].
  match type of H with Some ?x = _ => assert (Hd : d = x) by congruence end. subst d. clear H.
  unfold calc_block_addr, calc_block_offset. cbn [blk_addr_mask blk_offset_mask].
  apply is_power_of_2_correct in Ep; [|assumption]. destruct Ep as [l ->].
  assert (Hl0 : 2 ^ l <> 0) by (apply N.pow_nonzero; lia).
  assert (Hl64 : l < 64) by (apply N.pow_lt_mono_r_iff in Hline; lia).
  rewrite land_pow2_mask.
  assert (Eo : N.ones l = 2 ^ l - 1) by (rewrite N.ones_equiv; lia).
  assert (Elog : a <> 0 -> N.log2 a < 64) by (intros; apply N.log2_lt_pow2; lia).
  assert (Em : N.land a (2 ^ 64 - 1 - (2 ^ l - 1)) = a / 2 ^ l * 2 ^ l).
  { destruct (N.eq_dec a 0) as [->|Hne]; [rewrite N.div_0_l by assumption; reflexivity|].
    replace (2 ^ 64 - 1 - (2 ^ l - 1)) with (N.lnot (N.ones l) 64).
    - rewrite <- N.ldiff_land_low by auto. now rewrite N.ldiff_ones_r, N.shiftr_div_pow2, N.shiftl_mul_pow2.
    - rewrite N.lnot_sub_low.
      + rewrite Eo, N.ones_equiv. lia.
      + destruct (N.eq_dec l 0) as [->|Hl]; [reflexivity|].
        apply N.log2_lt_pow2; [|lia]. rewrite Eo. assert (2 ^ 1 <= 2 ^ l) by (apply N.pow_le_mono_r; lia).
        change (2 ^ 1) with 2 in *. lia. }
  rewrite Em. pose proof (N.div_mod a (2 ^ l) Hl0). pose proof (N.mod_lt a (2 ^ l) Hl0).
  repeat split; lia.
Qed.
Example C48_reassemble_ex : match make_decoder 32 64 64 8 true with
  | Some d => calc_block_addr d 74565 = 74560 /\ calc_block_offset d 74565 = 5 | None => False end.
Proof. vm_compute. repeat split. Qed.
Print Assumptions C48_reassemble.

(* The constructor also accepts a number of sets that is not a power of two, and a stride different from
   the line size; then distinct blocks can share index and tag, or one block have two. *)
Theorem C48_nonpow2_sets_refuted : exists sz line_sz stride num_ways d a b,
  make_decoder sz line_sz stride num_ways true = Some d /\ stride = line_sz /\
  calc_tag d a = calc_tag d b /\ calc_idx d a = calc_idx d b /\ ~ same_block line_sz a b.
Proof.
  exists 3, 64, 64, 1.
  destruct (make_decoder 3 64 64 1 true) as [d|] eqn:E; [|discriminate].
  exists d, 0, (64 * 16). vm_compute in E. injection E as <-.
  split; [reflexivity|]. split; [reflexivity|]. split; [reflexivity|]. split; [reflexivity|].
  unfold same_block. vm_compute. discriminate.
Qed.
Print Assumptions C48_nonpow2_sets_refuted.

Theorem C48_stride_refuted :
  (exists sz line_sz stride num_ways d a b,
    make_decoder sz line_sz stride num_ways true = Some d /\ line_sz < stride /\
    calc_tag d a = calc_tag d b /\ calc_idx d a = calc_idx d b /\ ~ same_block line_sz a b) /\
  (exists sz line_sz stride num_ways d a b,
    make_decoder sz line_sz stride num_ways true = Some d /\ stride < line_sz /\
    calc_idx d a <> calc_idx d b /\ same_block line_sz a b).
Proof.
  split.
  - exists 4, 64, 128, 1. destruct (make_decoder 4 64 128 1 true) as [d|] eqn:E; [|discriminate].
    exists d, 0, 64. vm_compute in E. injection E as <-. unfold same_block. vm_compute. repeat split; discriminate.
  - exists 4, 64, 32, 1. destruct (make_decoder 4 64 32 1 true) as [d|] eqn:E; [|discriminate].
    exists d, 0, 32. vm_compute in E. injection E as <-. unfold same_block. vm_compute. repeat split; discriminate.
Qed.
Print Assumptions C48_stride_refuted.
