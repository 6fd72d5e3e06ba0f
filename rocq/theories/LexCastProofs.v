(** Proofs about the reading of numbers (LexCastModel, LexCastSpec). *)
From Coq Require Import List NArith ZArith Arith Bool Ascii String Lia.
From Verif Require Import LayoutModel StorageModel LexCastModel LexCastSpec.
Import ListNotations.
Open Scope N_scope.

(** All characters (an ascii is eight bits, sparta/sparta/utils/SmartLexicalCast.hpp 185: char). *)
Definition chars : text := map ascii_of_nat (seq 0 256).

Lemma in_chars : forall c, In c chars.
Proof.
  intros c. unfold chars. apply in_map_iff. exists (nat_of_ascii c). split; [apply ascii_nat_embedding|].
  apply in_seq. split; [lia|]. apply nat_ascii_bounded.
Qed.

Lemma char_check (P : ascii -> bool) : forallb P chars = true -> forall c, P c = true.
Proof. intros H c. rewrite forallb_forall in H. apply H, in_chars. Qed.

(** Separators. *)
Lemma ws_separator c : ws c = true <-> separator c.
Proof.
  split.
  - intros H. unfold separator.
    pose proof (char_check (fun c => implb (ws c) (existsb (Nat.eqb (nat_of_ascii c)) [32; 95; 44; 9; 10]%nat))
                  ltac:(vm_compute; reflexivity) c) as Hc. cbv beta in Hc.
    rewrite H in Hc. cbn [implb] in Hc. apply existsb_exists in Hc. destruct Hc as [x [Hin He]].
    apply Nat.eqb_eq in He. rewrite He. exact Hin.
  - intros H. unfold separator in H.
    pose proof (char_check (fun c => implb (existsb (Nat.eqb (nat_of_ascii c)) [32; 95; 44; 9; 10]%nat) (ws c))
                  ltac:(vm_compute; reflexivity) c) as Hc. cbv beta in Hc.
    replace (existsb (Nat.eqb (nat_of_ascii c)) [32; 95; 44; 9; 10]%nat) with true in Hc; [exact Hc|].
    symmetry. apply existsb_exists. exists (nat_of_ascii c). split; [exact H|apply Nat.eqb_refl].
Qed.

(** A set of digit characters is the one of a radix. *)
Definition set_ok (radix : N) (D : text) : bool :=
  forallb (fun c => match digit radix c with
                    | Some d => isin D c && (digit_value c =? d) && negb (ws c) && negb (Ascii.eqb c "."%char)
                    | None => implb (isin D c) (Ascii.eqb c "."%char)
                    end) chars.

Lemma set_digit radix D c d : set_ok radix D = true -> digit radix c = Some d ->
  isin D c = true /\ digit_value c = d /\ ws c = false /\ c <> "."%char.
Proof.
  intros H Hd. pose proof (char_check _ H c) as Hc. cbv beta in Hc. rewrite Hd in Hc.
  apply andb_prop in Hc. destruct Hc as [Hc Hp]. apply andb_prop in Hc. destruct Hc as [Hc Hw].
  apply andb_prop in Hc. destruct Hc as [Hi Hv]. apply N.eqb_eq in Hv. apply negb_true_iff in Hw.
  apply negb_true_iff in Hp. apply Ascii.eqb_neq in Hp. auto.
Qed.
Lemma set_not radix D c : set_ok radix D = true -> isin D c = true -> c <> "."%char -> digit radix c <> None.
Proof.
  intros H Hi Hp E. pose proof (char_check _ H c) as Hc. cbv beta in Hc. rewrite E, Hi in Hc. cbn [implb] in Hc.
  apply Ascii.eqb_eq in Hc. contradiction.
Qed.

Lemma set10 : set_ok 10 DECIMAL_DIGITS = true. Proof. vm_compute. reflexivity. Qed.
Lemma set16 : set_ok 16 (str "0123456789abcdefABCDEF") = true. Proof. vm_compute. reflexivity. Qed.
Lemma set2 : set_ok 2 (str "01") = true. Proof. vm_compute. reflexivity. Qed.
Lemma set8 : set_ok 8 (str "01234567") = true. Proof. vm_compute. reflexivity. Qed.

Lemma digit_lt radix c d : digit radix c = Some d -> d < radix.
Proof.
  unfold digit. destruct ((48 <=? lower c) && (lower c <=? 57)).
  - destruct (lower c - 48 <? radix) eqn:E; [|discriminate]. intros H. injection H as <-. apply N.ltb_lt. exact E.
  - destruct ((97 <=? lower c) && (lower c <=? 102)); [|discriminate].
    destruct (lower c - 87 <? radix) eqn:E; [|discriminate]. intros H. injection H as <-. apply N.ltb_lt. exact E.
Qed.

Lemma positional_app radix a b :
  positional radix (a ++ b) = positional radix a * radix ^ N.of_nat (List.length b) + positional radix b.
Proof.
  induction a as [|c a IH]; cbn [positional app].
  - lia.
  - rewrite IH, app_length, Nat2N.inj_add, N.pow_add_r. lia.
Qed.

Lemma digits_value_spec radix D ds : set_ok radix D = true -> all_digits radix ds ->
  digits_value radix ds = positional radix ds.
Proof.
  intros HD H. unfold digits_value.
  assert (G : forall v, fold_left (fun v c => v * radix + digit_value c) ds v =
                        v * radix ^ N.of_nat (List.length ds) + positional radix ds).
  { induction H as [|c ds Hc _ IH]; intros v; cbn [fold_left positional List.length].
    - rewrite N.pow_0_r. lia.
    - rewrite IH. destruct (digit radix c) as [d|] eqn:E; [|contradiction].
      destruct (set_digit _ _ _ _ HD E) as [_ [-> _]].
      rewrite Nat2N.inj_succ, N.pow_succ_r'. lia. }
  rewrite G. lia.
Qed.

(** Texts that start with the given tokens. *)
Definition starts (toks : list text) (r : text) : Prop :=
  match toks with [] => r = [] | t :: tl => exists r', r = t ++ r' /\ spelled tl r' end.
(** The first token ends a sequence of characters of the set. *)
Definition stop (D : text) (toks : list text) : Prop :=
  match toks with [] => True | t :: _ => exists c t', t = c :: t' /\ isin D c = false /\ ws c = false end.

Lemma span_app f a b : Forall (fun c => f c = true) a -> span f (a ++ b) = (a ++ fst (span f b), snd (span f b)).
Proof.
  induction 1 as [|c a Hc _ IH]; cbn [app span].
  - destruct (span f b). reflexivity.
  - rewrite Hc, IH. reflexivity.
Qed.

Lemma filter_none {A} (f : A -> bool) l : Forall (fun x => f x = false) l -> filter f l = [].
Proof. induction 1 as [|x l Hx _ IH]; cbn [filter]; [reflexivity|]. rewrite Hx. exact IH. Qed.

Lemma sep_ws w : Forall separator w -> Forall (fun c => ws c = true) w.
Proof. apply Forall_impl. intros c. apply ws_separator. Qed.

Lemma parse_spelled D ds toks : forall s, Forall (fun c => isin D c = true /\ ws c = false) ds -> stop D toks ->
  spelled (singles ds ++ toks) s -> exists r, parse_numeric s D = (ds, r) /\ starts toks r.
Proof.
  induction ds as [|c ds IH]; intros s Hds Hst Hs; cbn [singles map app] in Hs.
  - unfold parse_numeric. inversion Hs as [w Hw|w t tl s' Hw Hs'].
    + subst. replace (span (fun c => isin D c || ws c) s) with (span (fun c => isin D c || ws c) (s ++ [])) by (rewrite app_nil_r; reflexivity).
      rewrite span_app; cbn [span fst snd].
      * exists []. rewrite app_nil_r. split; [|reflexivity]. f_equal. apply filter_none. apply sep_ws in Hw.
        revert Hw. apply Forall_impl. intros c ->. reflexivity.
      * apply sep_ws in Hw. revert Hw. apply Forall_impl. intros c ->. apply orb_true_r.
    + subst. destruct Hst as [c [t' [-> [Hc Hcw]]]].
      rewrite span_app.
      * cbn [app span]. rewrite Hc, Hcw. cbn [orb fst snd]. exists ((c :: t') ++ s'). split.
        -- f_equal. rewrite app_nil_r. apply filter_none. apply sep_ws in Hw.
           revert Hw. apply Forall_impl. intros x ->. reflexivity.
        -- exists s'. auto.
      * apply sep_ws in Hw. revert Hw. apply Forall_impl. intros x ->. apply orb_true_r.
  - inversion Hs as [|w t tl s' Hw Hs']. subst. inversion Hds as [|x l [Hi Hn] Hds']. subst.
    destruct (IH s' Hds' Hst Hs') as [r [Hr Hst']]. exists r. split; [|exact Hst'].
    unfold parse_numeric in *. rewrite span_app.
    + cbn [app span]. rewrite Hi. cbn [orb]. destruct (span (fun c => isin D c || ws c) s') as [a b].
      cbn [fst snd]. injection Hr as Hr1 Hr2. subst b. f_equal. rewrite filter_app, filter_none.
      * cbn [filter app]. rewrite Hn. cbn [negb]. rewrite Hr1. reflexivity.
      * apply sep_ws in Hw. revert Hw. apply Forall_impl. intros x ->. reflexivity.
    + apply sep_ws in Hw. revert Hw. apply Forall_impl. intros x ->. apply orb_true_r.
Qed.

Lemma skip_spelled toks s : stop [] toks -> spelled toks s -> starts toks (snd (span ws s)).
Proof.
  intros Hst Hs. inversion Hs as [w Hw|w t tl s' Hw Hs']; subst.
  - rewrite <- (app_nil_r s). rewrite span_app by (apply sep_ws; exact Hw). reflexivity.
  - destruct Hst as [c [t' [-> [_ Hcw]]]]. rewrite span_app by (apply sep_ws; exact Hw).
    cbn [app span]. rewrite Hcw. cbn [snd]. exists s'. auto.
Qed.

(** Suffixes. *)
Definition row_eqb (u : text) (m : N) (row : text * N) : bool :=
  (if list_eq_dec Ascii.ascii_dec u (fst row) then true else false) && (m =? snd row).

Lemma unit_row u m : unit_value u = Some m -> u <> [] -> In (u, m) suffixes.
Proof.
  intros H Hne.
  assert (G : existsb (row_eqb u m) suffixes = true).
  { destruct u as [|a [|b [|c u]]].
    - contradiction.
    - pose proof (char_check (fun a => match unit_value [a] with
                                       | Some m => existsb (row_eqb [a] m) suffixes | None => true end)
                    ltac:(vm_compute; reflexivity) a) as Hc.
      cbv beta in Hc. rewrite H in Hc. exact Hc.
    - pose proof (char_check (fun a => forallb (fun b => match unit_value [a; b] with
                                       | Some m => existsb (row_eqb [a; b] m) suffixes | None => true end) chars)
                    ltac:(vm_compute; reflexivity) a) as Hc.
      cbv beta in Hc. pose proof (char_check _ Hc b) as Hd. cbv beta in Hd. rewrite H in Hd. exact Hd.
    - exfalso. unfold unit_value in H. cbn [map] in H. generalize dependent (lower a). intros n H.
      generalize dependent (lower b). intros n0 H.
      repeat match type of H with
             | match ?x with _ => _ end = _ => destruct x; try discriminate H
             end. }
  apply existsb_exists in G. destruct G as [[u' m'] [Hin He]]. unfold row_eqb in He. cbn [fst snd] in He.
  apply andb_prop in He. destruct He as [He Hm]. apply N.eqb_eq in Hm.
  destruct (list_eq_dec ascii_dec u u') as [->|]; [|discriminate]. subst m'. exact Hin.
Qed.

Lemma find_suffix_unit u m r : In (u, m) suffixes ->
  match r with c :: _ => lower c <> 105 | [] => True end -> find_suffix suffixes (u ++ r) = (m, r).
Proof.
  intros Hin Hr.
  assert (Hi : forall c r', r = c :: r' -> Ascii.eqb "i" c = false /\ Ascii.eqb "I" c = false).
  { intros c r' ->. split; apply Ascii.eqb_neq; intros <-; apply Hr; reflexivity. }
  unfold suffixes in Hin. cbn [In] in Hin.
  repeat (destruct Hin as [Hin|Hin];
          [injection Hin as <- <-; destruct r as [|c r]; [reflexivity|];
           destruct (Hi c r eq_refl) as [H1 H2];
           cbn -[N.pow] in H1, H2 |- *; rewrite ?H1, ?H2; reflexivity|]).
  contradiction.
Qed.

Lemma first_char toks c r : spelled toks (c :: r) -> Forall (fun t => t <> []) toks ->
  ws c = true \/ exists t tl, toks = (c :: t) :: tl.
Proof.
  intros Hs Hne. inversion Hs as [w Hw E|w t tl s' Hw Hs' E1 E2]; subst.
  - inversion Hw. left. apply ws_separator. assumption.
  - destruct w as [|x w].
    + inversion Hne as [|a b Ht _]. subst. destruct t as [|y t]; [contradiction|].
      cbn [app] in E2. injection E2 as <- _. right. eauto.
    + cbn [app] in E2. injection E2 as -> _. inversion Hw. left. apply ws_separator. assumption.
Qed.

Lemma all_in radix D ds : set_ok radix D = true -> all_digits radix ds ->
  Forall (fun c => isin D c = true /\ ws c = false) ds.
Proof.
  intros HD. apply Forall_impl. intros c Hc. destruct (digit radix c) as [d|] eqn:E; [|contradiction].
  destruct (set_digit _ _ _ _ HD E) as [H1 [_ [H2 _]]]. auto.
Qed.
Lemma all_no_point radix D ds : set_ok radix D = true -> all_digits radix ds -> Forall (fun c => c <> "."%char) ds.
Proof.
  intros HD. apply Forall_impl. intros c Hc. destruct (digit radix c) as [d|] eqn:E; [|contradiction].
  destruct (set_digit _ _ _ _ HD E) as [_ [_ [_ H2]]]. auto.
Qed.

Lemma split_none ds : Forall (fun c => c <> "."%char) ds -> split_point ds = (ds, None).
Proof.
  induction 1 as [|c ds Hc _ IH]; cbn [split_point]; [reflexivity|].
  apply Ascii.eqb_neq in Hc. rewrite Hc, IH. reflexivity.
Qed.
Lemma split_some ds f : Forall (fun c => c <> "."%char) ds -> split_point (ds ++ "."%char :: f) = (ds, Some f).
Proof.
  induction 1 as [|c ds Hc _ IH]; cbn [split_point app].
  - reflexivity.
  - apply Ascii.eqb_neq in Hc. rewrite Hc, IH. reflexivity.
Qed.

(** The digits of a summand as parseNumericString extracts them. *)
Definition pointed (whole frac : text) : text := whole ++ match frac with [] => [] | f => "."%char :: f end.

Lemma suffix_props : forallb (fun row => match fst row with
                                | c :: _ => negb (isin DECIMAL_DIGITS c) && negb (ws c) &&
                                    negb (isin (str "01234567") c) && negb (isin (str "01") c) &&
                                    (negb (isin (str "0123456789abcdefABCDEF") c) || (lower c =? 98))
                                | [] => false end && (1 <=? snd row) && (snd row <=? 2 ^ 50)) suffixes = true.
Proof. vm_compute. reflexivity. Qed.

Lemma suffix_range u m : In (u, m) suffixes -> 1 <= m <= 2 ^ 50.
Proof.
  intros H. pose proof suffix_props as G. rewrite forallb_forall in G. specialize (G _ H). cbn [fst snd] in G.
  apply andb_prop in G. destruct G as [G G2]. apply andb_prop in G. destruct G as [_ G1].
  apply N.leb_le in G1, G2. auto.
Qed.
Lemma suffix_stop u m : In (u, m) suffixes -> forall c u', u = c :: u' ->
  ws c = false /\ isin DECIMAL_DIGITS c = false /\ isin (str "01234567") c = false /\ isin (str "01") c = false /\
  (lower c <> 98 -> isin (str "0123456789abcdefABCDEF") c = false).
Proof.
  intros H c u' ->. pose proof suffix_props as G. rewrite forallb_forall in G. specialize (G _ H). cbn [fst snd] in G.
  apply andb_prop in G. destruct G as [G _]. apply andb_prop in G. destruct G as [G _].
  apply andb_prop in G. destruct G as [G G5]. apply andb_prop in G. destruct G as [G G4].
  apply andb_prop in G. destruct G as [G G3]. apply andb_prop in G. destruct G as [G1 G2].
  apply negb_true_iff in G1, G2, G3, G4. repeat split; try assumption.
  intros Hl. apply orb_prop in G5. destruct G5 as [G5|G5]; [apply negb_true_iff in G5; exact G5|].
  apply N.eqb_eq in G5. contradiction.
Qed.

Lemma w64_id x : x < 2 ^ 64 -> w64 x = x.
Proof. intros H. unfold w64. apply N.mod_small. exact H. Qed.

Lemma digit10_code c d : digit 10 c = Some d ->
  (N_of_ascii c <? 48) || (57 <? N_of_ascii c) = false /\ N_of_ascii c - 48 = d.
Proof.
  intros H.
  pose proof (char_check (fun c => match digit 10 c with
     | Some d => negb ((N_of_ascii c <? 48) || (57 <? N_of_ascii c)) && (N_of_ascii c - 48 =? d) | None => true end)
     ltac:(vm_compute; reflexivity) c) as Hc. cbv beta in Hc. rewrite H in Hc.
  apply andb_prop in Hc. destruct Hc as [H1 H2]. apply negb_true_iff in H1. apply N.eqb_eq in H2. auto.
Qed.

Lemma pow10_small j : j <= 9 -> 10 ^ j < 2 ^ 32.
Proof.
  intros H. apply N.le_lt_trans with (10 ^ 9); [apply N.pow_le_mono_r; [discriminate|exact H]|reflexivity].
Qed.

(** The loop starts place [i] with ten_div = 10^(i+1) modulo 2^32. *)
Lemma fraction_loop m : 1 <= m <= 2 ^ 50 -> forall f i v,
  (i + N.of_nat (List.length f) <= 9) -> all_digits 10 f ->
  (forall j c d, nth_error f j = Some c -> digit 10 c = Some d ->
     d <> 0 /\ exists q, d * m = q * 10 ^ (i + N.of_nat (Datatypes.S j))) ->
  v + frac_sum f m i < 2 ^ 64 ->
  add_fraction f m (10 ^ (i + 1) mod 2 ^ 32) v = Done (v + frac_sum f m i) /\
  frac_sum f m i * 10 ^ (i + N.of_nat (List.length f)) = positional 10 f * m.
Proof.
  intros Hm. induction f as [|c f IH]; intros i v Hlen Hd Hok Hv; cbn [add_fraction frac_sum positional List.length] in *.
  - split; [f_equal; lia|lia].
  - inversion Hd as [|c' f' Hc Hd']. subst. destruct (digit 10 c) as [d|] eqn:Ed; [|contradiction].
    destruct (Hok O c d eq_refl Ed) as [Hnz [q Hq]].
    assert (Hd10 : d < 10) by (eapply digit_lt; exact Ed).
    destruct (digit10_code _ _ Ed) as [-> ->].
    replace (i + N.of_nat 1) with (i + 1) in Hq by reflexivity.
    assert (Hi : i + 1 <= 9) by lia.
    assert (Hp : 0 < 10 ^ (i + 1)) by (apply N.neq_0_lt_0, N.pow_nonzero; discriminate).
    assert (Hdm : d * m < 2 ^ 64).
    { apply N.le_lt_trans with (9 * 2 ^ 50); [apply N.mul_le_mono; lia|reflexivity]. }
    rewrite (N.mod_small (10 ^ (i + 1))) by (apply pow10_small; exact Hi).
    rewrite w64_id by exact Hdm.
    assert (Hq0 : q <> 0) by (intros ->; nia).
    replace (d * m <? 10 ^ (i + 1)) with false by (symmetry; apply N.ltb_ge; rewrite Hq; nia).
    replace (10 ^ (i + 1) =? 0) with false by (symmetry; apply N.eqb_neq; lia).
    assert (Hdiv : d * m / 10 ^ (i + 1) = q) by (rewrite Hq; apply N.div_mul; lia).
    rewrite Hdiv in *.
    assert (Hv' : v + q + frac_sum f m (i + 1) < 2 ^ 64) by (rewrite <- N.add_assoc; exact Hv).
    assert (Hvq : v + q < 2 ^ 64) by (revert Hv'; generalize (frac_sum f m (i + 1)); clear; intros; lia).
    rewrite w64_id by exact Hvq.
    replace (10 ^ (i + 1) * 10) with (10 ^ (i + 1 + 1)) by (rewrite (N.add_1_r (i + 1)), N.pow_succ_r'; apply N.mul_comm).
    destruct (IH (i + 1) (v + q)) as [H1 H2].
    + rewrite Nat2N.inj_succ in Hlen. clear - Hlen. lia.
    + exact Hd'.
    + intros j c0 d0 Hj Hd0. destruct (Hok (Datatypes.S j) c0 d0 Hj Hd0) as [Hz [q' Hq']]. split; [exact Hz|].
      exists q'. rewrite Hq'. f_equal. f_equal. rewrite !Nat2N.inj_succ. clear. lia.
    + exact Hv'.
    + split.
      * rewrite H1. f_equal. clear. lia.
      * rewrite Nat2N.inj_succ. replace (i + N.succ (N.of_nat (List.length f))) with (i + 1 + N.of_nat (List.length f)) by (clear; lia).
        rewrite N.mul_add_distr_r, H2, N.mul_add_distr_r. f_equal.
        rewrite N.pow_add_r, N.mul_assoc, <- Hq. clear. ring.
Qed.

Lemma lexical_ok radix D ds : set_ok radix D = true -> all_digits radix ds -> positional radix ds < 2 ^ 64 ->
  match ds with [] => Done 0 | _ => lexical_cast radix ds end = Done (positional radix ds).
Proof.
  intros HD Hd Hv. destruct ds as [|c ds]; [reflexivity|].
  unfold lexical_cast. cbv zeta. rewrite (digits_value_spec _ _ _ HD Hd).
  apply N.ltb_lt in Hv. rewrite Hv. reflexivity.
Qed.

Lemma pointed_nonempty w f : w <> [] \/ f <> [] -> exists c r, pointed w f = c :: r.
Proof. intros H. unfold pointed. destruct w as [|a w]; destruct f as [|b f]; cbn [app]; eauto. destruct H; contradiction. Qed.

Lemma split_pointed w f : Forall (fun c => c <> "."%char) w ->
  split_point (pointed w f) = (w, match f with [] => None | _ => Some f end).
Proof.
  intros H. unfold pointed. destruct f as [|b f].
  - rewrite app_nil_r. apply split_none. exact H.
  - apply split_some. exact H.
Qed.

Lemma rest_last recur ar s radix D ds : set_ok radix D = true -> all_digits radix ds -> ds <> [] ->
  positional radix ds < 2 ^ 64 -> cast_rest recur ar s radix ds [] = Done (positional radix ds, None).
Proof.
  intros HD Hd Hne Hv. unfold cast_rest.
  rewrite split_none by (eapply all_no_point; eassumption).
  pose proof (lexical_ok _ _ _ HD Hd Hv) as E. destruct ds as [|c ds]; [contradiction|]. rewrite E. reflexivity.
Qed.

Lemma rest_unit recur s radix D w f u m r2 a : set_ok radix D = true -> all_digits radix w ->
  (w <> [] \/ f <> []) -> In (u, m) suffixes -> match r2 with c :: _ => lower c <> 105 | [] => True end ->
  all_digits 10 f -> fraction_ok (mkTerm w f u) -> unit_value u = Some m ->
  recur r2 = Done (a, None) -> positional radix w * m + frac_sum f m 0 + a < 2 ^ 64 ->
  cast_rest recur true s radix (pointed w f) (u ++ r2) = Done (positional radix w * m + frac_sum f m 0 + a, None) /\
  frac_sum f m 0 * 10 ^ N.of_nat (List.length f) = positional 10 f * m.
Proof.
  intros HD Hw Hne Hin Hr2 Hf [Hlen Hfr] Hu Hrec Hv.
  pose proof (suffix_range _ _ Hin) as Hm.
  assert (Hfac : factor u = m) by (unfold factor; rewrite Hu; reflexivity).
  cbn [t_frac t_unit] in Hlen, Hfr. rewrite Hfac in Hfr.
  destruct (fraction_loop m Hm f 0 (positional radix w * m)) as [H1 H2].
  { clear - Hlen. lia. }
  { exact Hf. }
  { intros j c d Hj Hd. destruct (Hfr j c d Hj Hd) as [Hz [q Hq]]. split; [exact Hz|]. exists q. rewrite Hq. reflexivity. }
  { revert Hv. generalize (positional radix w * m), (frac_sum f m 0). clear. intros. lia. }
  split; [|exact H2].
  destruct (pointed_nonempty w f Hne) as [c [r Hp]].
  pose proof (split_pointed w f (all_no_point _ _ _ HD Hw)) as Hsp.
  unfold cast_rest. rewrite Hp. rewrite <- Hp, Hsp.
  assert (Hv1 : positional radix w * m < 2 ^ 64).
  { revert Hv. generalize (positional radix w * m), (frac_sum f m 0). clear. intros. lia. }
  assert (Hv0 : positional radix w < 2 ^ 64).
  { apply N.le_lt_trans with (positional radix w * m); [|exact Hv1]. destruct Hm as [Hm _].
    revert Hm. generalize (positional radix w). clear. intros. nia. }
  destruct u as [|x u]; [exfalso; vm_compute in Hin; intuition discriminate|].
  change (10 ^ (0 + 1) mod 2 ^ 32) with 10 in H1.
  pose proof (find_suffix_unit _ _ _ Hin Hr2) as Hsuf. cbn [app] in Hsuf |- *.
  destruct f as [|b f]; cbv beta iota; rewrite (lexical_ok _ _ _ HD Hw Hv0); cbn [obind];
    rewrite Hsuf, (w64_id _ Hv1), H1; cbn [obind]; rewrite Hrec; cbn [obind];
    rewrite (w64_id _ Hv); reflexivity.
Qed.

Lemma term_split v len W F m : v * 10 ^ N.of_nat len = (W * 10 ^ N.of_nat len + F) * m -> forall G,
  G * 10 ^ N.of_nat len = F * m -> v = W * m + G.
Proof.
  intros H G HG. assert (Hp : 10 ^ N.of_nat len <> 0) by (apply N.pow_nonzero; discriminate).
  apply (N.mul_cancel_r _ _ _ Hp). rewrite H, N.mul_add_distr_r, <- HG. ring.
Qed.

(** Without suffix there is no fraction. *)
Lemma no_unit_no_frac t : term_ok t -> fraction_ok t -> t_unit t = [] -> t_frac t = [].
Proof.
  intros [_ [Hf _]] [_ H] Hu. destruct (t_frac t) as [|c f]; [reflexivity|]. exfalso.
  inversion Hf as [|c' f' Hc _]. subst. destruct (digit 10 c) as [d|] eqn:E; [|contradiction].
  destruct (H O c d eq_refl E) as [Hz [q Hq]]. rewrite Hu in Hq. apply digit_lt in E.
  change (factor []) with 1 in Hq. change (10 ^ N.of_nat 1) with 10 in Hq. lia.
Qed.

Lemma frac_sum_value t v m : unit_value (t_unit t) = Some m -> term_value t v ->
  frac_sum (t_frac t) m 0 * 10 ^ N.of_nat (List.length (t_frac t)) = positional 10 (t_frac t) * m ->
  v = positional 10 (t_int t) * m + frac_sum (t_frac t) m 0.
Proof.
  intros Hu Hv Hf. unfold term_value in Hv. rewrite positional_app in Hv. unfold factor in Hv. rewrite Hu in Hv.
  eapply term_split; eassumption.
Qed.

(** The first token of decimal summands. *)
Lemma terms_first ts : Forall term_ok ts ->
  match List.concat (map term_tokens ts) with
  | [] => True | t :: _ => exists c, t = [c] /\ isin DECIMAL_DIGITS c = true /\ ws c = false
  end.
Proof.
  intros H. destruct H as [|t ts [Hi [Hf [Hne _]]] _]; cbn [map List.concat]; [exact Logic.I|].
  unfold term_tokens. destruct (t_int t) as [|c w]; cbn [singles map app].
  - destruct (t_frac t) as [|c f]; [destruct Hne; contradiction|]. cbn [app]. exists "."%char. repeat split.
  - inversion Hi as [|x l Hx _]. subst. destruct (digit 10 c) as [d|] eqn:E; [|contradiction].
    destruct (set_digit _ _ _ _ set10 E) as [H1 [_ [H2 _]]]. eauto.
Qed.
Lemma tokens_nonempty ts : Forall term_ok ts -> Forall (fun t => t <> []) (List.concat (map term_tokens ts)).
Proof.
  intros H. induction H as [|t ts [Hi [Hf [Hne Hu]]] _ IH]; cbn [map List.concat]; [constructor|].
  apply Forall_app. split; [|exact IH]. unfold term_tokens, singles.
  apply Forall_app. split; [apply Forall_forall; intros x Hx; apply in_map_iff in Hx; destruct Hx as [y [<- _]]; discriminate|].
  apply Forall_app. split.
  - destruct (t_frac t) as [|c f]; [constructor|]. cbn [app]. constructor; [discriminate|].
    apply Forall_forall; intros x Hx; apply in_map_iff in Hx; destruct Hx as [y [<- _]]; discriminate.
  - unfold unit_token. destruct (t_unit t); [constructor|]. constructor; [discriminate|constructor].
Qed.

Lemma dec_or_ws_not_i c : isin DECIMAL_DIGITS c = true \/ ws c = true -> lower c <> 105.
Proof.
  intros H E.
  pose proof (char_check (fun c => implb (isin DECIMAL_DIGITS c || ws c) (negb (lower c =? 105)))
     ltac:(vm_compute; reflexivity) c) as Hc. cbv beta in Hc. rewrite E in Hc.
  destruct H as [H|H]; rewrite H in Hc; rewrite ?orb_true_r in Hc; cbn in Hc; discriminate.
Qed.

Lemma next_not_i ts r : Forall term_ok ts -> spelled (List.concat (map term_tokens ts)) r ->
  match r with c :: _ => lower c <> 105 | [] => True end.
Proof.
  intros H Hs. destruct r as [|c r]; [exact Logic.I|].
  destruct (first_char _ _ _ Hs (tokens_nonempty _ H)) as [Hw|[t [tl E]]].
  - apply dec_or_ws_not_i. auto.
  - pose proof (terms_first _ H) as G. rewrite E in G. destruct G as [c' [G1 [G2 _]]]. injection G1 as -> _.
    apply dec_or_ws_not_i. auto.
Qed.

Lemma terms_stop ts D : Forall term_ok ts -> (forall c, isin D c = true -> False) -> stop D (List.concat (map term_tokens ts)).
Proof.
  intros H HD. pose proof (terms_first ts H) as G. destruct (List.concat (map term_tokens ts)) as [|t l]; [exact Logic.I|].
  destruct G as [c [-> [_ Hw]]]. exists c, []. repeat split; auto. destruct (isin D c) eqn:E; [destruct (HD _ E)|reflexivity].
Qed.

Lemma pointed_tokens t : term_tokens t = singles (pointed (t_int t) (t_frac t)) ++ unit_token (t_unit t).
Proof.
  unfold term_tokens, pointed, singles. rewrite app_assoc. f_equal. destruct (t_frac t); cbn [app].
  - rewrite !app_nil_r. reflexivity.
  - rewrite map_app. reflexivity.
Qed.
Lemma pointed_in t : term_ok t -> Forall (fun c => isin DECIMAL_DIGITS c = true /\ ws c = false) (pointed (t_int t) (t_frac t)).
Proof.
  intros [Hi [Hf _]]. unfold pointed. apply Forall_app. split; [eapply all_in; [exact set10|exact Hi]|].
  destruct (t_frac t) as [|c f] eqn:E; [constructor|]. constructor; [split; reflexivity|].
  eapply all_in; [exact set10|exact Hf].
Qed.

(** The digits of a fraction together are worth what the fraction is. *)
Lemma frac_sum_places m f : forall i, all_digits 10 f ->
  (forall j c d, nth_error f j = Some c -> digit 10 c = Some d ->
     d <> 0 /\ exists q, d * m = q * 10 ^ (i + N.of_nat (Datatypes.S j))) ->
  frac_sum f m i * 10 ^ (i + N.of_nat (List.length f)) = positional 10 f * m.
Proof.
  induction f as [|c f IH]; intros i Hd Hok; cbn [frac_sum positional List.length]; [lia|].
  inversion Hd as [|c' f' Hc Hd']. subst. destruct (digit 10 c) as [d|] eqn:Ed; [|contradiction].
  destruct (Hok O c d eq_refl Ed) as [_ [q Hq]]. replace (i + N.of_nat 1) with (i + 1) in Hq by reflexivity.
  assert (Hp : 10 ^ (i + 1) <> 0) by (apply N.pow_nonzero; discriminate).
  rewrite Hq at 1. rewrite N.div_mul by exact Hp.
  rewrite Nat2N.inj_succ. replace (i + N.succ (N.of_nat (List.length f))) with (i + 1 + N.of_nat (List.length f)) by (clear; lia).
  rewrite N.mul_add_distr_r, N.mul_add_distr_r. rewrite IH.
  - f_equal. rewrite N.pow_add_r, N.mul_assoc, <- Hq. clear. ring.
  - exact Hd'.
  - intros j c0 d0 Hj Hd0. destruct (Hok (Datatypes.S j) c0 d0 Hj Hd0) as [Hz [q' Hq']]. split; [exact Hz|].
    exists q'. rewrite Hq'. f_equal. f_equal. rewrite !Nat2N.inj_succ. clear. lia.
Qed.

(** Reading from the digits of a decimal summand on. *)
Lemma term_rest recur s t toks r2s v a :
  term_ok t -> fraction_ok t -> term_value t v -> v + a < 2 ^ 64 ->
  (t_unit t = [] -> r2s = [] /\ a = 0) ->
  starts (unit_token (t_unit t) ++ toks) r2s ->
  (forall r2, spelled toks r2 -> match r2 with c :: _ => lower c <> 105 | [] => True end) ->
  (forall r2, spelled toks r2 -> r2s = t_unit t ++ r2 -> t_unit t <> [] -> recur r2 = Done (a, None)) ->
  cast_rest recur true s 10 (pointed (t_int t) (t_frac t)) r2s = Done (v + a, None).
Proof.
  intros Hok Hfr Hv Hlt Hlast Hst Hi Hrec. pose proof Hok as [Hint [Hfrac [Hne Hu]]].
  destruct (t_unit t) as [|x u] eqn:Eu.
  - destruct (Hlast eq_refl) as [-> ->]. rewrite N.add_0_r in *.
    pose proof (no_unit_no_frac _ Hok Hfr Eu) as Ef.
    assert (Hv' : v = positional 10 (t_int t)).
    { unfold term_value in Hv. rewrite Ef, Eu, app_nil_r in Hv. cbn in Hv. lia. }
    rewrite Ef in *. unfold pointed. rewrite app_nil_r. rewrite Hv' in *.
    apply rest_last with DECIMAL_DIGITS; [exact set10|exact Hint| |exact Hlt]. destruct Hne; [assumption|contradiction].
  - cbn [unit_token app] in Hst. destruct Hst as [r2 [-> Hs2]].
    destruct (unit_value (x :: u)) as [m|] eqn:Em; [|contradiction].
    pose proof (unit_row _ _ Em ltac:(discriminate)) as Hin.
    assert (Hfr' : fraction_ok (mkTerm (t_int t) (t_frac t) (x :: u))) by (unfold fraction_ok in *; cbn [t_frac t_unit]; rewrite <- Eu; exact Hfr).
    (* the sum of the digits *)
    pose proof (suffix_range _ _ Hin) as Hm.
    assert (Hex : forall j c d, nth_error (t_frac t) j = Some c -> digit 10 c = Some d ->
       d <> 0 /\ exists q, d * m = q * 10 ^ (0 + N.of_nat (Datatypes.S j))).
    { intros j c d Hj Hd. destruct Hfr' as [_ Hfr']. cbn [t_frac t_unit] in Hfr'. destruct (Hfr' j c d Hj Hd) as [Hz [q Hq]].
      unfold factor in Hq. rewrite Em in Hq. split; [exact Hz|]. exists q. exact Hq. }
    assert (Hsum : frac_sum (t_frac t) m 0 * 10 ^ N.of_nat (List.length (t_frac t)) = positional 10 (t_frac t) * m).
    { exact (frac_sum_places m (t_frac t) 0 Hfrac Hex). }
    assert (Hv' : v = positional 10 (t_int t) * m + frac_sum (t_frac t) m 0).
    { apply frac_sum_value; [rewrite Eu; exact Em|exact Hv|exact Hsum]. }
    rewrite Hv' in Hlt |- *.
    destruct (rest_unit recur s 10 DECIMAL_DIGITS (t_int t) (t_frac t) (x :: u) m r2 a set10 Hint Hne Hin (Hi _ Hs2)
      Hfrac Hfr' Em (Hrec r2 Hs2 eq_refl ltac:(discriminate)) Hlt) as [E _].
    exact E.
Qed.

Lemma span_length f s : (List.length (snd (span f s)) <= List.length s)%nat.
Proof.
  induction s as [|c s IH]; cbn [span]; [cbn; lia|]. destruct (f c); [|cbn; lia].
  destruct (span f s) as [a b]. cbn [snd List.length] in *. lia.
Qed.
Lemma parse_length s D : (List.length (snd (parse_numeric s D)) <= List.length s)%nat.
Proof.
  unfold parse_numeric. pose proof (span_length (fun c => isin D c || ws c) s) as H.
  destruct (span (fun c => isin D c || ws c) s) as [a b]. exact H.
Qed.

(** Decimal summands. *)
Lemma cast_terms ts : forall depth s v, (List.length s < depth)%nat -> Forall term_ok ts -> Forall fraction_ok ts ->
  units_between (map t_unit ts) -> terms_value ts v -> v < 2 ^ 64 -> spelled (List.concat (map term_tokens ts)) s ->
  cast_rec depth true false s = Done (v, None).
Proof.
  induction ts as [|t ts IH]; intros depth s v Hd Hok Hfr Hun Hv Hlt Hs.
  - destruct depth as [|depth]; [lia|]. inversion Hv. subst. cbn [map List.concat] in Hs. cbn [cast_rec].
    pose proof (skip_spelled [] s Logic.I Hs) as E. cbn [starts] in E. rewrite E. reflexivity.
  - destruct depth as [|depth]; [lia|]. inversion Hv as [|t' ts' v1 vs Hv1 Hvs]. subst.
    inversion Hok as [|x l Ht Hts]. subst. inversion Hfr as [|x l Hft Hfts]. subst.
    pose proof (skip_spelled _ _ (terms_stop _ [] Hok ltac:(cbn; discriminate)) Hs) as Hskip.
    pose proof (span_length ws s) as Hlen.
    cbn [cast_rec].
    pose proof (terms_first _ Hok) as Hfirst.
    cbn [map List.concat] in Hs, Hskip, Hfirst. destruct (snd (span ws s)) as [|c1 s1] eqn:Es1.
    { exfalso. destruct (term_tokens t ++ List.concat (map term_tokens ts)) as [|tk l] eqn:Et.
      - unfold term_tokens in Et. destruct Ht as [_ [_ [[H|H] _]]]; destruct (t_int t), (t_frac t); try contradiction; discriminate.
      - destruct Hfirst as [c [-> _]]. cbn [starts] in Hskip. destruct Hskip as [r' [E _]]. discriminate. }
    assert (Hs1 : spelled (term_tokens t ++ List.concat (map term_tokens ts)) (c1 :: s1)).
    { destruct (term_tokens t ++ List.concat (map term_tokens ts)) as [|tk l] eqn:Et.
      - discriminate Hskip.
      - destruct Hskip as [r' [-> Hr']]. apply (sp_token [] tk l r'); [constructor|exact Hr']. }
    rewrite pointed_tokens in Hs1. rewrite <- app_assoc in Hs1.
    assert (Hstop : stop DECIMAL_DIGITS (unit_token (t_unit t) ++ List.concat (map term_tokens ts))).
    { destruct (t_unit t) as [|x u] eqn:Eu.
      - destruct ts as [|t2 ts]; [exact Logic.I|]. cbn [map units_between] in Hun. rewrite Eu in Hun. destruct Hun as [Hun _]. contradiction.
      - cbn [unit_token app stop]. exists x, u. split; [reflexivity|].
        destruct Ht as [_ [_ [_ Hu]]]. rewrite Eu in Hu. destruct (unit_value (x :: u)) as [m|] eqn:Em; [|contradiction].
        pose proof (unit_row _ _ Em ltac:(discriminate)) as Hin.
        destruct (suffix_stop _ _ Hin x u eq_refl) as [H1 [H2 _]]. auto. }
    destruct (parse_spelled DECIMAL_DIGITS _ _ _ (pointed_in _ Ht) Hstop Hs1) as [r [Hp Hst]].
    pose proof (parse_length (c1 :: s1) DECIMAL_DIGITS) as Hpl. rewrite Hp in *. cbn [snd] in Hpl.
    apply term_rest with (toks := List.concat (map term_tokens ts)); try assumption.
    + intros Eu. rewrite Eu in *. destruct ts as [|t2 ts].
      * inversion Hvs. cbn [map List.concat unit_token app starts] in Hst. auto.
      * cbn [map units_between] in Hun. rewrite Eu in Hun. destruct Hun as [Hun _]. contradiction.
    + intros r2 Hr2. eapply next_not_i; [exact Hts|exact Hr2].
    + intros r2 Hr2 Er Hune. apply IH; try assumption.
      * assert (List.length r = List.length (t_unit t) + List.length r2)%nat by (rewrite Er, app_length; reflexivity).
        destruct (t_unit t); [contradiction|]. cbn [List.length] in *. lia.
      * destruct ts as [|t2 ts]; [exact Logic.I|]. cbn [map units_between] in Hun |- *. exact (proj2 Hun).
      * revert Hlt. generalize (2 ^ 64). clear. intros. lia.
Qed.

(** Prefixes. *)
Lemma no_prefix_first c r : c <> "0"%char -> find_prefix prefixes (c :: r) = None.
Proof.
  intros H. assert (E : Ascii.eqb "0" c = false) by (apply Ascii.eqb_neq; congruence).
  unfold prefixes. cbn [find_prefix]. unfold str. cbn [list_ascii_of_string after]. rewrite E. reflexivity.
Qed.

(** The second character of the two-character prefixes. *)
Definition second (c : ascii) : bool := isin (str "xXbB") c.

Lemma prefix_zero r : match r with c :: _ => second c = false | [] => True end ->
  find_prefix prefixes ("0"%char :: r) =
  match parse_numeric r (str "01234567") with ([], _) => None | (num, r') => Some (8, num, r') end.
Proof.
  intros H. unfold prefixes. cbn [find_prefix]. unfold str. cbn [list_ascii_of_string after].
  assert (E : Ascii.eqb "0" "0" = true) by reflexivity. rewrite E.
  destruct r as [|c r].
  - reflexivity.
  - unfold second, isin, str in H. cbn [list_ascii_of_string existsb] in H.
    apply orb_false_elim in H. destruct H as [H1 H]. apply orb_false_elim in H. destruct H as [H2 H].
    apply orb_false_elim in H. destruct H as [H3 H]. apply orb_false_elim in H. destruct H as [H4 _].
    rewrite Ascii.eqb_sym in H1, H2, H3, H4. rewrite H1, H2, H3, H4.
    cbn [list_ascii_of_string]. reflexivity.
Qed.

Lemma dec_ws_not_second c : isin DECIMAL_DIGITS c = true \/ ws c = true -> second c = false.
Proof.
  intros H.
  pose proof (char_check (fun c => implb (isin DECIMAL_DIGITS c || ws c) (negb (second c)))
     ltac:(vm_compute; reflexivity) c) as Hc. cbv beta in Hc.
  apply negb_true_iff. destruct H as [H|H]; rewrite H in Hc; rewrite ?orb_true_r in Hc; exact Hc.
Qed.

Lemma cast_no_prefix depth s : find_prefix prefixes (snd (span ws s)) = None ->
  cast_rec depth true true s = cast_rec depth true false s.
Proof.
  intros H. destruct depth as [|depth]; [reflexivity|]. cbn [cast_rec]. destruct (snd (span ws s)) as [|c r]; [reflexivity|].
  rewrite H. reflexivity.
Qed.

Lemma terms_no_prefix ts s : Forall term_ok ts -> spelled (List.concat (map term_tokens ts)) s ->
  match ts with
  | t :: ts => forall r, t_int t = "0"%char :: r -> r = [] /\ (t_frac t <> [] \/ (t_unit t = [] /\ ts = []))
  | [] => True
  end ->
  find_prefix prefixes (snd (span ws s)) = None.
Proof.
  intros Hok Hs Hz.
  pose proof (skip_spelled _ _ (terms_stop _ [] Hok ltac:(cbn; discriminate)) Hs) as Hskip.
  destruct ts as [|t ts].
  - cbn [map List.concat starts] in Hskip. rewrite Hskip. reflexivity.
  - inversion Hok as [|x l Ht Hts]. subst. pose proof Ht as [Hi [Hf [Hne Hu]]].
    pose proof (tokens_nonempty _ Hok) as Hnet.
    cbn [map List.concat] in Hskip, Hnet. unfold term_tokens in Hskip, Hnet.
    destruct (t_int t) as [|c w].
    + destruct (t_frac t) as [|c f]; [destruct Hne; contradiction|]. cbn [singles map app starts] in Hskip.
      destruct Hskip as [r' [-> _]]. apply no_prefix_first. discriminate.
    + cbn [singles map app starts] in Hskip. destruct Hskip as [r' [-> Hr']]. cbn [app].
      destruct (Ascii.ascii_dec c "0"%char) as [->|Hc]; [|apply no_prefix_first; exact Hc].
      destruct (Hz w eq_refl) as [-> Hcase]. cbn [map app] in Hr'. rewrite prefix_zero.
      * assert (G : exists r, parse_numeric r' (str "01234567") = ([], r)).
        { destruct (t_frac t) as [|c f].
          - destruct Hcase as [Hcase|[Eu ->]]; [contradiction|]. rewrite Eu in Hr'. cbn [map List.concat app unit_token] in Hr'.
            destruct (parse_spelled (str "01234567") [] [] r' ltac:(constructor) Logic.I Hr') as [r [E _]]. eauto.
          - cbn [app] in Hr'. match type of Hr' with spelled ?tk _ =>
              destruct (parse_spelled (str "01234567") [] tk r' ltac:(constructor) ltac:(exists "."%char, []; auto) Hr') as [r [E _]] end.
            eauto. }
        destruct G as [r ->]. reflexivity.
      * destruct r' as [|c r']; [exact Logic.I|].
        match type of Hr' with spelled ?tk _ => assert (Hnt : Forall (fun t => t <> []) tk) end.
        { cbn [singles map app] in Hnet. inversion Hnet. assumption. }
        destruct (first_char _ _ _ Hr' Hnt) as [Hw|[t0 [tl E]]]; [apply dec_ws_not_second; auto|].
        destruct (t_frac t) as [|c' f].
        -- destruct Hcase as [Hcase|[Eu ->]]; [contradiction|]. rewrite Eu in E. discriminate.
        -- cbn [app] in E. injection E as <- _. reflexivity.
Qed.

(** The row of a prefix. *)
Definition prefix_digits (radix : N) : text :=
  if radix =? 16 then str "0123456789abcdefABCDEF" else if radix =? 2 then str "01" else str "01234567".

Lemma radix_spellings p radix : radix_of p = Some radix ->
  (radix = 16 /\ (p = str "0x" \/ p = str "0X")) \/ (radix = 2 /\ (p = str "0b" \/ p = str "0B")) \/ (radix = 8 /\ p = str "0").
Proof.
  intros H.
  pose proof (char_check (fun a => match radix_of [a] with Some r => (r =? 8) && Ascii.eqb a "0"%char | None => true end)
    ltac:(vm_compute; reflexivity)) as H1.
  pose proof (char_check (fun a => forallb (fun b => match radix_of [a; b] with
     | Some r => Ascii.eqb a "0"%char && (((r =? 16) && isin (str "xX") b) || ((r =? 2) && isin (str "bB") b)) | None => true end) chars)
    ltac:(vm_compute; reflexivity)) as H2.
  cbv beta in H1, H2.
  destruct p as [|a [|b [|c p]]].
  - discriminate.
  - specialize (H1 a). rewrite H in H1. apply andb_prop in H1. destruct H1 as [E1 E2]. apply N.eqb_eq in E1.
    apply Ascii.eqb_eq in E2. subst. auto.
  - specialize (H2 a). pose proof (char_check _ H2 b) as H3. cbv beta in H3. rewrite H in H3.
    apply andb_prop in H3. destruct H3 as [E1 E2]. apply Ascii.eqb_eq in E1. subst a.
    apply orb_prop in E2. destruct E2 as [E2|E2]; apply andb_prop in E2; destruct E2 as [E2 E3]; apply N.eqb_eq in E2; subst radix;
      unfold isin, str in E3; cbn [list_ascii_of_string existsb] in E3; rewrite orb_false_r in E3; apply orb_prop in E3;
      destruct E3 as [E3|E3]; apply Ascii.eqb_eq in E3; subst b; auto.
  - exfalso. unfold radix_of in H. cbn [map] in H. generalize dependent (lower a). intros n H.
    generalize dependent (lower b). intros n0 H.
    repeat match type of H with
           | match ?x with _ => _ end = _ => destruct x; try discriminate H
           end.
Qed.

Lemma prefix_set radix p : radix_of p = Some radix -> set_ok radix (prefix_digits radix) = true.
Proof.
  intros H. destruct (radix_spellings _ _ H) as [[-> _]|[[-> _]|[-> _]]]; [exact set16|exact set2|exact set8].
Qed.

Lemma find_prefix_head p radix s ds r : radix_of p = Some radix -> ds <> [] ->
  parse_numeric s (prefix_digits radix) = (ds, r) -> match s with c :: _ => radix = 8 -> second c = false | [] => True end ->
  find_prefix prefixes (p ++ s) = Some (radix, ds, r).
Proof.
  intros Hp Hds Hparse Hsec. destruct ds as [|d ds]; [contradiction|].
  destruct (radix_spellings _ _ Hp) as [[-> [->| ->]]|[[-> [->| ->]]|[-> ->]]]; cbn [N.eqb prefix_digits] in Hparse.
  1-4: unfold prefix_digits in Hparse; cbn [N.eqb Pos.eqb] in Hparse;
       unfold prefixes; cbn [find_prefix]; unfold str; cbn [list_ascii_of_string app after];
       cbn [Ascii.eqb Bool.eqb]; unfold str in Hparse; cbn [list_ascii_of_string] in Hparse; rewrite Hparse; reflexivity.
  change (str "0" ++ s) with ("0"%char :: s). rewrite prefix_zero.
  - unfold prefix_digits in Hparse. cbn [N.eqb Pos.eqb] in Hparse. rewrite Hparse. reflexivity.
  - destruct s as [|c s]; [exact Logic.I|]. apply Hsec. reflexivity.
Qed.

(** A first summand with a prefix. *)
Lemma cast_head h ts depth s a b radix : (List.length s < depth)%nat -> head_ok h -> radix_of (h_prefix h) = Some radix ->
  Forall term_ok ts -> Forall fraction_ok ts -> units_between (h_unit h :: map t_unit ts) ->
  match h_unit h with c :: _ => radix_of (h_prefix h) = Some 16 -> lower c <> 98 | [] => True end ->
  a = positional radix (h_digits h) * factor (h_unit h) -> terms_value ts b -> a + b < 2 ^ 64 ->
  spelled (head_tokens h ++ List.concat (map term_tokens ts)) s ->
  cast_rec depth true true s = Done (a + b, None).
Proof.
  intros Hdep [radix' [Hp [Hd [Hne Hu]]]] Hrad Hok Hfr Hun Hb Ha Hvs Hlt Hs.
  rewrite Hrad in Hp. injection Hp as <-.
  pose proof (prefix_set _ _ Hrad) as Hset.
  destruct depth as [|depth]; [lia|]. cbn [cast_rec].
  unfold head_tokens in Hs. cbn [app] in Hs.
  assert (Hst0 : stop [] ((h_prefix h) :: (singles (h_digits h) ++ unit_token (h_unit h)) ++ List.concat (map term_tokens ts))).
  { cbn [stop]. destruct (radix_spellings _ _ Hrad) as [[_ [->| ->]]|[[_ [->| ->]]|[_ ->]]]; unfold str;
      cbn [list_ascii_of_string]; eexists; eexists; split; try reflexivity; split; reflexivity. }
  pose proof (skip_spelled _ _ Hst0 Hs) as Hskip. cbn [starts] in Hskip. destruct Hskip as [s1 [Es1 Hs1]].
  pose proof (span_length ws s) as Hlen. rewrite Es1 in Hlen.
  assert (Hpne : exists x y, h_prefix h ++ s1 = x :: y).
  { destruct (radix_spellings _ _ Hrad) as [[_ [->| ->]]|[[_ [->| ->]]|[_ ->]]]; unfold str; cbn [list_ascii_of_string app]; eauto. }
  rewrite <- app_assoc in Hs1.
  assert (Hstop : stop (prefix_digits radix) (unit_token (h_unit h) ++ List.concat (map term_tokens ts))).
  { destruct (h_unit h) as [|x u] eqn:Eu.
    - destruct ts as [|t2 ts]; [exact Logic.I|]. cbn [map units_between] in Hun. destruct Hun as [Hun _]. contradiction.
    - cbn [unit_token app stop]. exists x, u. split; [reflexivity|].
      destruct (unit_value (x :: u)) as [m|] eqn:Em; [|contradiction].
      pose proof (unit_row _ _ Em ltac:(discriminate)) as Hin.
      destruct (suffix_stop _ _ Hin x u eq_refl) as [H1 [H2 [H3 [H4 H5]]]]. split; [|exact H1].
      destruct (radix_spellings _ _ Hrad) as [[-> _]|[[-> _]|[-> _]]]; [apply H5, Hb; exact Hrad|exact H4|exact H3]. }
  destruct (parse_spelled _ _ _ _ (all_in _ _ _ Hset Hd) Hstop Hs1) as [r [Hparse Hst]].
  assert (Hnet : Forall (fun t => t <> []) (singles (h_digits h) ++ unit_token (h_unit h) ++ List.concat (map term_tokens ts))).
  { apply Forall_app. split; [apply Forall_forall; intros x Hx; apply in_map_iff in Hx; destruct Hx as [y [<- _]]; discriminate|].
    apply Forall_app. split; [|apply tokens_nonempty; exact Hok]. unfold unit_token. destruct (h_unit h); [constructor|].
    constructor; [discriminate|constructor]. }
  pose proof (parse_length s1 (prefix_digits radix)) as Hpl. rewrite Hparse in Hpl. cbn [snd] in Hpl.
  assert (Hfind : find_prefix prefixes (h_prefix h ++ s1) = Some (radix, h_digits h, r)).
  { apply find_prefix_head; try assumption. destruct s1 as [|c s1]; [exact Logic.I|]. intros ->.
    destruct (first_char _ _ _ Hs1 Hnet) as [Hw|[t0 [tl E]]]; [apply dec_ws_not_second; auto|].
    destruct (h_digits h) as [|d ds]; [contradiction|]. cbn [singles map app] in E. injection E as -> _ _.
    inversion Hd as [|x l Hx _]. subst.
    pose proof (char_check (fun c => match digit 8 c with Some _ => negb (second c) | None => true end)
      ltac:(vm_compute; reflexivity) c) as Hc. cbv beta in Hc. destruct (digit 8 c); [|contradiction].
    apply negb_true_iff. exact Hc. }
  rewrite Es1. destruct Hpne as [x [y Exy]]. rewrite Exy. rewrite <- Exy. rewrite Hfind.
  destruct (h_unit h) as [|x' u] eqn:Eu.
  - destruct ts as [|t2 ts]; [|cbn [map units_between] in Hun; destruct Hun as [Hun _]; contradiction].
    cbn [map List.concat unit_token app starts] in Hst. subst r. inversion Hvs. subst b.
    assert (Hae : a = positional radix (h_digits h)) by (rewrite Ha; change (factor []) with 1; apply N.mul_1_r).
    rewrite N.add_0_r, Hae in *. apply rest_last with (prefix_digits radix); assumption.
  - cbn [unit_token app starts] in Hst. destruct Hst as [r2 [-> Hr2]].
    unfold factor in Ha. destruct (unit_value (x' :: u)) as [m|] eqn:Em; [|contradiction].
    pose proof (unit_row _ _ Em ltac:(discriminate)) as Hin.
    assert (Hrec : cast_rec depth true false r2 = Done (b, None)).
    { apply cast_terms with ts; try assumption.
      - cbn [app List.length] in Hpl. rewrite !app_length in *. clear - Hpl Hlen Hdep. cbn [List.length] in *. lia.
      - destruct ts as [|t2 ts]; [exact Logic.I|]. cbn [map units_between] in Hun |- *. exact (proj2 Hun).
      - revert Hlt. generalize (2 ^ 64). clear. intros. lia. }
    assert (E0 : a + b = positional radix (h_digits h) * m + frac_sum [] m 0 + b) by (cbn [frac_sum]; rewrite Ha; clear; lia).
    rewrite E0 in Hlt |- *.
    destruct (rest_unit (cast_rec depth true false) s radix (prefix_digits radix) (h_digits h) [] (x' :: u) m r2 b) as [E _];
      try assumption.
    + left. assumption.
    + eapply next_not_i; [exact Hok|exact Hr2].
    + constructor.
    + split; cbn [t_frac List.length]; [lia|]. intros i c d Hi. destruct i; discriminate.
    + unfold pointed in E. rewrite app_nil_r in E. exact E.
Qed.

(** Reading back: what is accepted is a number. *)
Lemma span_split f s : s = fst (span f s) ++ snd (span f s) /\ Forall (fun c => f c = true) (fst (span f s)).
Proof.
  induction s as [|c s [IH1 IH2]]; cbn [span]; [split; [reflexivity|constructor]|].
  destruct (f c) eqn:E; [|split; [reflexivity|constructor]]. destruct (span f s) as [a b]. cbn [fst snd app] in *.
  split; [congruence|]. constructor; assumption.
Qed.

Lemma spelled_sep c toks s : separator c -> spelled toks s -> spelled toks (c :: s).
Proof.
  intros Hc Hs. inversion Hs as [w Hw|w t tl s' Hw Hs']; subst.
  - constructor. constructor; assumption.
  - apply (sp_token (c :: w)); [constructor; assumption|assumption].
Qed.
Lemma spelled_span a toks b : spelled toks b -> spelled (singles (filter (fun c => negb (ws c)) a) ++ toks) (a ++ b).
Proof.
  intros Hb. induction a as [|c a IH]; cbn [filter app]; [exact Hb|].
  destruct (ws c) eqn:E; cbn [negb singles map app].
  - apply spelled_sep; [apply ws_separator; exact E|exact IH].
  - apply (sp_token [] [c]); [constructor|exact IH].
Qed.
Lemma spelled_parse s D num r toks : parse_numeric s D = (num, r) -> spelled toks r -> spelled (singles num ++ toks) s.
Proof.
  unfold parse_numeric. destruct (span_split (fun c => isin D c || ws c) s) as [H1 _].
  destruct (span (fun c => isin D c || ws c) s) as [a b]. cbn [fst snd] in *. intros E Hs. injection E as <- <-.
  rewrite H1. apply spelled_span. exact Hs.
Qed.
Lemma parse_chars s D num r : parse_numeric s D = (num, r) -> Forall (fun c => isin D c = true /\ ws c = false) num.
Proof.
  unfold parse_numeric. destruct (span_split (fun c => isin D c || ws c) s) as [_ H2].
  destruct (span (fun c => isin D c || ws c) s) as [a b]. cbn [fst snd] in *. intros E. injection E as <- _.
  apply Forall_forall. intros c Hc. apply filter_In in Hc. destruct Hc as [Hc Hn]. apply negb_true_iff in Hn.
  rewrite Forall_forall in H2. specialize (H2 _ Hc). rewrite Hn, orb_false_r in H2. auto.
Qed.
Lemma spelled_skip s toks : spelled toks (snd (span ws s)) -> spelled toks s.
Proof.
  intros H. destruct (span_split ws s) as [H1 H2]. rewrite H1. revert H2. generalize (fst (span ws s)). intros a Ha.
  induction Ha as [|c a Hc _ IH]; cbn [app]; [exact H|]. apply spelled_sep; [apply ws_separator; exact Hc|exact IH].
Qed.

Lemma after_inv p : forall s r, after p s = Some r -> s = p ++ r.
Proof.
  induction p as [|c p IH]; intros s r H; cbn [after] in H.
  - injection H as <-. reflexivity.
  - destruct s as [|d s]; [discriminate|]. destruct (Ascii.eqb c d) eqn:E; [|discriminate]. apply Ascii.eqb_eq in E. subst d.
    cbn [app]. f_equal. apply IH. exact H.
Qed.

Lemma find_suffix_inv rows r m r2 : find_suffix rows r = (m, r2) ->
  (m = 1 /\ r2 = r) \/ exists u, In (u, m) rows /\ r = u ++ r2.
Proof.
  induction rows as [|[p m'] rows IH]; cbn [find_suffix]; intros H.
  - injection H as <- <-. auto.
  - destruct (after p r) as [r'|] eqn:E.
    + injection H as <- <-. right. exists p. split; [left; reflexivity|]. apply after_inv. exact E.
    + destruct (IH H) as [G|[u [G1 G2]]]; [auto|]. right. exists u. split; [right; exact G1|exact G2].
Qed.

Lemma suffix_unit u m : In (u, m) suffixes -> unit_value u = Some m /\ u <> [].
Proof.
  intros H.
  assert (G : forallb (fun row => match unit_value (fst row) with Some x => x =? snd row | None => false end &&
                                  match fst row with [] => false | _ => true end) suffixes = true) by (vm_compute; reflexivity).
  rewrite forallb_forall in G. specialize (G _ H). cbn [fst snd] in G. apply andb_prop in G. destruct G as [G1 G2].
  destruct (unit_value u) as [x|]; [|discriminate]. apply N.eqb_eq in G1. subst. split; [reflexivity|]. destruct u; discriminate.
Qed.

Lemma find_suffix_split r m r2 : find_suffix suffixes r = (m, r2) ->
  exists u, unit_value u = Some m /\ r = u ++ r2 /\ 1 <= m <= 2 ^ 50.
Proof.
  intros H. destruct (find_suffix_inv _ _ _ _ H) as [[-> ->]|[u [Hin ->]]].
  - exists []. split; [reflexivity|]. split; [reflexivity|]. split; vm_compute; discriminate.
  - exists u. split; [exact (proj1 (suffix_unit _ _ Hin))|]. split; [reflexivity|]. eapply suffix_range. exact Hin.
Qed.

Lemma find_prefix_inv s radix num r : find_prefix prefixes s = Some (radix, num, r) ->
  exists p s', radix_of p = Some radix /\ s = p ++ s' /\ parse_numeric s' (prefix_digits radix) = (num, r) /\ num <> [].
Proof.
  assert (G : forall rows, (forall p rd D, In (p, rd, D) rows -> radix_of p = Some rd /\ D = prefix_digits rd) ->
    find_prefix rows s = Some (radix, num, r) ->
    exists p s', radix_of p = Some radix /\ s = p ++ s' /\ parse_numeric s' (prefix_digits radix) = (num, r) /\ num <> []).
  { induction rows as [|[[p rd] D] rows IH]; intros Hr H; cbn [find_prefix] in H; [discriminate|].
    assert (Hr' : forall p rd D, In (p, rd, D) rows -> radix_of p = Some rd /\ D = prefix_digits rd)
      by (intros; apply Hr; right; assumption).
    destruct (after p s) as [s'|] eqn:E; [|exact (IH Hr' H)].
    destruct (parse_numeric s' D) as [n r'] eqn:Ep. destruct n as [|c n]; [exact (IH Hr' H)|].
    injection H as <- <- <-. destruct (Hr p rd D (or_introl eq_refl)) as [H1 ->].
    exists p, s'. split; [exact H1|]. split; [apply after_inv; exact E|]. split; [exact Ep|discriminate]. }
  apply G. intros p rd D Hin. unfold prefixes in Hin. cbn [In] in Hin.
  repeat (destruct Hin as [Hin|Hin]; [injection Hin as <- <- <-; split; reflexivity|]). contradiction.
Qed.

Lemma split_point_inv num w fr : split_point num = (w, fr) ->
  num = w ++ match fr with Some f => "."%char :: f | None => [] end /\ Forall (fun c => c <> "."%char) w.
Proof.
  revert w fr. induction num as [|c num IH]; intros w fr H; cbn [split_point] in H.
  - injection H as <- <-. split; [reflexivity|constructor].
  - destruct (Ascii.eqb c "."%char) eqn:E.
    + injection H as <- <-. apply Ascii.eqb_eq in E. subst. split; [reflexivity|constructor].
    + destruct (split_point num) as [a b]. injection H as <- <-. destruct (IH a b eq_refl) as [H1 H2].
      split; [cbn [app]; congruence|]. constructor; [apply Ascii.eqb_neq; exact E|exact H2].
Qed.

Lemma code_digit10 c : (N_of_ascii c <? 48) || (57 <? N_of_ascii c) = false ->
  digit 10 c = Some (N_of_ascii c - 48) /\ N_of_ascii c - 48 < 10.
Proof.
  intros H.
  pose proof (char_check (fun c => implb (negb ((N_of_ascii c <? 48) || (57 <? N_of_ascii c)))
     (match digit 10 c with Some d => (d =? N_of_ascii c - 48) && (d <? 10) | None => false end))
     ltac:(vm_compute; reflexivity) c) as Hc. cbv beta in Hc. rewrite H in Hc. cbn [negb implb] in Hc.
  destruct (digit 10 c) as [d|]; [|discriminate]. apply andb_prop in Hc. destruct Hc as [H1 H2].
  apply N.eqb_eq in H1. apply N.ltb_lt in H2. subst d. auto.
Qed.

Lemma w64_add a b : w64 (w64 a + b) = w64 (a + b).
Proof. unfold w64. rewrite N.add_mod_idemp_l by discriminate. reflexivity. Qed.

Lemma fraction_inv m : 1 <= m <= 2 ^ 50 -> forall f i td v v', add_fraction f m td v = Done v' ->
  all_digits 10 f /\
  (td = 10 ^ (i + 1) mod 2 ^ 32 -> i + N.of_nat (List.length f) <= 9 -> w64 v' = w64 (v + frac_sum f m i)).
Proof.
  intros Hm. induction f as [|c f IH]; intros i td v v' H; cbn [add_fraction] in H.
  - injection H as <-. split; [constructor|]. intros _ _. cbn [frac_sum]. rewrite N.add_0_r. reflexivity.
  - cbv zeta in H. destruct ((N_of_ascii c <? 48) || (57 <? N_of_ascii c)) eqn:Ec; [discriminate|].
    destruct (code_digit10 _ Ec) as [Ed Hlt].
    destruct (w64 ((N_of_ascii c - 48) * m) <? td); [discriminate|]. destruct (td =? 0); [discriminate|].
    destruct (IH (i + 1) _ _ _ H) as [Hd Hval]. split; [constructor; [rewrite Ed; discriminate|exact Hd]|].
    intros -> Hlen. cbn [List.length] in Hlen. rewrite Nat2N.inj_succ in Hlen.
    assert (Hi : i + 1 <= 9) by (clear - Hlen; lia).
    rewrite Hval.
    + cbn [frac_sum]. rewrite Ed. rewrite w64_add. f_equal.
      rewrite (N.mod_small (10 ^ (i + 1))) by (apply pow10_small; exact Hi).
      rewrite (w64_id (_ * m)); [clear; lia|].
      apply N.le_lt_trans with (9 * 2 ^ 50); [apply N.mul_le_mono; clear - Hlt Hm; lia|reflexivity].
    + rewrite N.mul_mod_idemp_l by discriminate. f_equal.
      rewrite (N.add_1_r (i + 1)), N.pow_succ_r'. apply N.mul_comm.
    + clear - Hlen. lia.
Qed.

Lemma lexical_inv radix D ds x : set_ok radix D = true -> all_digits radix ds ->
  match ds with [] => Done 0 | _ => lexical_cast radix ds end = Done x -> x = positional radix ds /\ x < 2 ^ 64.
Proof.
  intros HD Hd. destruct ds as [|c ds].
  - intros H. injection H as <-. split; reflexivity.
  - unfold lexical_cast. cbv zeta. rewrite (digits_value_spec _ _ _ HD Hd).
    destruct (positional radix (c :: ds) <? 2 ^ 64) eqn:E; [|discriminate].
    intros H. injection H as <-. split; [reflexivity|]. apply N.ltb_lt. exact E.
Qed.

Lemma rest_sound recur s radix D num r v e : set_ok radix D = true ->
  Forall (fun c => isin D c = true /\ ws c = false) num ->
  (forall r2 a e', recur r2 = Done (a, e') -> e' = None) ->
  cast_rest recur true s radix num r = Done (v, e) ->
  e = None /\ exists w f u m r2 a,
    num = pointed w f /\ (w <> [] \/ f <> []) /\ all_digits radix w /\ all_digits 10 f /\
    unit_value u = Some m /\ r = u ++ r2 /\ ((r2 = [] /\ a = 0) \/ recur r2 = Done (a, None)) /\
    ((List.length f <= 9)%nat -> v = (positional radix w * m + frac_sum f m 0 + a) mod 2 ^ 64).
Proof.
  intros HD Hnum Hrec H. unfold cast_rest in H.
  destruct num as [|c0 num0]; [discriminate|]. remember (c0 :: num0) as num eqn:Enum.
  destruct (split_point num) as [w fr] eqn:Esp. destruct (split_point_inv _ _ _ Esp) as [Hn Hw].
  assert (Hdig : all_digits radix w).
  { rewrite Hn in Hnum. apply Forall_app in Hnum. destruct Hnum as [Hnum _].
    apply Forall_forall. intros c Hc. rewrite Forall_forall in Hnum, Hw. eapply set_not; [exact HD| |].
    - exact (proj1 (Hnum _ Hc)).
    - exact (Hw _ Hc). }
  set (f := match fr with Some f => f | None => [] end) in *.
  assert (Hpt : (fr = Some [] -> False) -> num = pointed w f).
  { intros Hfr. unfold pointed, f. rewrite Hn. destruct fr as [[|x f']|]; [destruct (Hfr eq_refl)|reflexivity|reflexivity]. }
  assert (Hmain : (fr = Some [] -> False) /\
    obind (match w with [] => Done 0 | _ => lexical_cast radix w end) (fun value =>
          match r with
          | [] => match f with [] => Done (value, None) | _ => Refused end
          | _ :: _ =>
              let (mult, r2) := find_suffix suffixes r in
              obind (add_fraction f mult 10 (w64 (value * mult))) (fun value =>
              obind (obind (recur r2) (fun '(addition, end_pos) => Done (w64 (value + addition), end_pos)))
               (fun '(value, end_pos) =>
              match end_pos with
              | None => Done (value, None)
              | Some e => match snd (span ws (skipn e s)) with [] => Done (value, Some e) | _ => Refused end
              end))
          end) = Done (v, e)).
  { destruct fr as [[|x f']|]; [discriminate| |]; (split; [discriminate|exact H]). }
  clear H. destruct Hmain as [Hfr H]. specialize (Hpt Hfr). clearbody f.
  assert (Hne : w <> [] \/ f <> []).
  { destruct w; [|left; discriminate]. destruct f; [|right; discriminate]. exfalso. rewrite Hpt in Enum. discriminate. }
  destruct (match w with [] => Done 0 | _ :: _ => lexical_cast radix w end) as [x| | | |] eqn:Ex; try discriminate.
  cbn [obind] in H. destruct (lexical_inv _ _ _ _ HD Hdig Ex) as [-> Hx].
  destruct r as [|c r'].
  - destruct f; [|discriminate]. injection H as <- <-. split; [reflexivity|].
    exists w, [], [], 1, [], 0. repeat split; try assumption; try (left; split; reflexivity); try constructor; try reflexivity.
    intros _. cbn [frac_sum]. rewrite N.mul_1_r, !N.add_0_r. symmetry. apply N.mod_small. exact Hx.
  - remember (c :: r') as r. destruct (find_suffix suffixes r) as [m r2] eqn:Es.
    destruct (find_suffix_split _ _ _ Es) as [u [Hu [Hr Hm]]].
    destruct (add_fraction f m 10 (w64 (positional radix w * m))) as [y| | | |] eqn:Ey; try discriminate. cbn [obind] in H.
    destruct (recur r2) as [[a e']| | | |] eqn:Er; try discriminate. cbn [obind] in H.
    pose proof (Hrec _ _ _ Er) as ->. injection H as <- <-. split; [reflexivity|].
    destruct (fraction_inv m Hm f 0 10 _ _ Ey) as [Hf Hval].
    exists w, f, u, m, r2, a. repeat split; try assumption.
    + right. exact Er.
    + intros Hlen. change (w64 (y + a) = w64 (positional radix w * m + frac_sum f m 0 + a)).
      rewrite <- (w64_add y). rewrite Hval; [|reflexivity|clear - Hlen; lia].
      rewrite !w64_add. replace (w64 (positional radix w * m) + frac_sum f m 0 + a) with (w64 (positional radix w * m) + (frac_sum f m 0 + a)) by (clear; lia).
      rewrite w64_add. f_equal. clear. lia.
Qed.

Lemma spelled_unit u toks r : spelled toks r -> spelled (unit_token u ++ toks) (u ++ r).
Proof.
  intros H. destruct u as [|c u]; cbn [unit_token app]; [exact H|].
  apply (sp_token [] (c :: u) toks r); [constructor|exact H].
Qed.

(** At most nine digits after the point (sparta/sparta/utils/SmartLexicalCast.hpp 349: ten_div up to 10^9 fits). *)
Definition short (t : term) : Prop := (List.length (t_frac t) <= 9)%nat.

Lemma cast_sound : forall depth pre s v e, cast_rec depth true pre s = Done (v, e) ->
  e = None /\ exists l, (pre = false -> l_head l = None) /\ match l_head l with Some h => head_ok h | None => True end /\
    Forall term_ok (l_terms l) /\ spelled (tokens l) s /\
    (Forall short (l_terms l) -> v = lit_floor l mod 2 ^ 64).
Proof.
  induction depth as [|depth IH]; intros pre s v e H; [discriminate|]. cbn [cast_rec] in H.
  destruct (snd (span ws s)) as [|c1 s1] eqn:Es1.
  - injection H as <- <-. split; [reflexivity|]. exists (mkLit None []). repeat split; auto.
    + constructor.
    + cbn. apply spelled_skip. rewrite Es1. constructor. constructor.
  - remember (c1 :: s1) as t1 eqn:Et1. clear Et1.
    assert (Hrec : forall r2 a e', cast_rec depth true false r2 = Done (a, e') -> e' = None)
      by (intros r2 a e' Hr; exact (proj1 (IH _ _ _ _ Hr))).
    assert (Hrest : forall r2 a, (r2 = [] /\ a = 0) \/ cast_rec depth true false r2 = Done (a, None) ->
      exists ts, Forall term_ok ts /\ spelled (List.concat (map term_tokens ts)) r2 /\
        (Forall short ts -> a = fold_right N.add 0 (map term_floor ts) mod 2 ^ 64)).
    { intros r2 a [[-> ->]|Hr].
      - exists []. repeat split; try constructor. constructor.
      - destruct (IH _ _ _ _ Hr) as [_ [l [Hl [_ [Hok [Hsp Hv]]]]]]. specialize (Hl eq_refl). exists (l_terms l).
        split; [exact Hok|]. unfold tokens in Hsp. rewrite Hl in Hsp. split; [exact Hsp|].
        intros Hsh. rewrite (Hv Hsh). unfold lit_floor. rewrite Hl. reflexivity. }
    assert (Hdec : forall num r, parse_numeric t1 DECIMAL_DIGITS = (num, r) ->
      cast_rest (cast_rec depth true false) true s 10 num r = Done (v, e) ->
      e = None /\ exists l, (pre = false -> l_head l = None) /\ match l_head l with Some h => head_ok h | None => True end /\
        Forall term_ok (l_terms l) /\ spelled (tokens l) s /\ (Forall short (l_terms l) -> v = lit_floor l mod 2 ^ 64)).
    { intros num r Hp Hc.
      destruct (rest_sound _ _ _ _ _ _ _ _ set10 (parse_chars _ _ _ _ Hp) Hrec Hc)
        as [He [w [f [u [m [r2 [a [Hn [Hne [Hw [Hf [Hu [Hr [Ha Hv]]]]]]]]]]]]]].
      split; [exact He|]. destruct (Hrest _ _ Ha) as [ts [Hok [Hsp Hts]]].
      exists (mkLit None (mkTerm w f u :: ts)). cbn [l_head l_terms]. split; [reflexivity|]. split; [exact Logic.I|].
      split; [constructor; [|exact Hok]; repeat split; try assumption; cbn [t_unit]; rewrite Hu; discriminate|].
      split.
      - unfold tokens. cbn [l_head l_terms app map List.concat]. rewrite pointed_tokens. cbn [t_int t_frac t_unit].
        rewrite <- app_assoc, <- Hn. apply spelled_skip. rewrite Es1. apply (spelled_parse _ _ _ _ _ Hp).
        rewrite Hr. apply spelled_unit. exact Hsp.
      - intros Hsh. inversion Hsh as [|x y Hs1 Hs2]. subst x y. rewrite (Hv Hs1), (Hts Hs2).
        rewrite N.add_mod_idemp_r by discriminate. f_equal. unfold lit_floor. cbn [l_head l_terms map fold_right].
        unfold term_floor at 2. unfold factor. cbn [t_int t_frac t_unit]. rewrite Hu. reflexivity. }
    destruct (if pre then find_prefix prefixes t1 else None) as [[[radix num] r]|] eqn:Ep.
    + destruct pre; [|discriminate]. destruct (find_prefix_inv _ _ _ _ Ep) as [p [s' [Hrad [Ht1 [Hp Hnn]]]]].
      pose proof (prefix_set _ _ Hrad) as Hset.
      destruct (rest_sound _ _ _ _ _ _ _ _ Hset (parse_chars _ _ _ _ Hp) Hrec H)
        as [He [w [f [u [m [r2 [a [Hn [Hne [Hw [Hf [Hu [Hr [Ha Hv]]]]]]]]]]]]]].
      split; [exact He|]. destruct (Hrest _ _ Ha) as [ts [Hok [Hsp Hts]]].
      assert (f = []) as ->.
      { destruct f as [|x f]; [reflexivity|]. exfalso. pose proof (parse_chars _ _ _ _ Hp) as G. rewrite Hn in G.
        unfold pointed in G. apply Forall_app in G. destruct G as [_ G]. inversion G as [|y l [G1 _] _]. subst y l.
        destruct (radix_spellings _ _ Hrad) as [[-> _]|[[-> _]|[-> _]]]; discriminate. }
      unfold pointed in Hn. rewrite app_nil_r in Hn. subst num.
      exists (mkLit (Some (mkHead p w u)) ts). cbn [l_head l_terms]. split; [discriminate|]. split.
      { exists radix. cbn [h_prefix h_digits h_unit]. repeat split; try assumption. rewrite Hu. discriminate. }
      split; [exact Hok|]. split.
      * unfold tokens, head_tokens. cbn [l_head l_terms h_prefix h_digits h_unit]. cbn [app]. rewrite <- app_assoc.
        apply spelled_skip. rewrite Es1, Ht1. apply (sp_token [] p); [constructor|].
        apply (spelled_parse _ _ _ _ _ Hp). rewrite Hr. apply spelled_unit. exact Hsp.
      * intros Hsh. rewrite Hv by (cbn; lia). rewrite (Hts Hsh). rewrite N.add_mod_idemp_r by discriminate. f_equal.
        unfold lit_floor, head_floor. cbn [l_head l_terms h_prefix h_digits h_unit frac_sum]. rewrite Hrad. unfold factor. rewrite Hu. lia.
    + destruct (parse_numeric t1 DECIMAL_DIGITS) as [num r] eqn:Hp. exact (Hdec _ _ eq_refl H).
Qed.

(** Enough depth. *)
Lemma cast_rest_deep recur ar s radix num r : cast_rest recur ar s radix num r = TooDeep ->
  exists r2, (List.length r2 <= List.length r)%nat /\ recur r2 = TooDeep.
Proof.
  intros H. unfold cast_rest in H. destruct num as [|c num]; [discriminate|].
  destruct (split_point (c :: num)) as [w fr].
  assert (G : obind (match w with [] => Done 0 | _ => lexical_cast radix w end) (fun value =>
          match r with
          | [] => match match fr with Some f => f | None => [] end with [] => Done (value, None) | _ => Refused end
          | _ :: _ =>
              let (mult, r2) := find_suffix suffixes r in
              obind (add_fraction match fr with Some f => f | None => [] end mult 10 (w64 (value * mult))) (fun value =>
              obind (if ar then obind (recur r2) (fun '(addition, end_pos) => Done (w64 (value + addition), end_pos))
                     else Done (value, Some (List.length s - List.length r2)%nat))
               (fun '(value, end_pos) =>
              match end_pos with
              | None => Done (value, None)
              | Some e => match snd (span ws (skipn e s)) with [] => Done (value, Some e) | _ => Refused end
              end))
          end) = TooDeep) by (destruct fr as [[|x f]|]; [discriminate|exact H|exact H]).
  clear H. destruct (match w with [] => Done 0 | _ :: _ => lexical_cast radix w end) eqn:Ex; try discriminate.
  2:{ destruct w; [discriminate|]. unfold lexical_cast in Ex. cbv zeta in Ex. match type of Ex with (if ?b then _ else _) = _ => destruct b; discriminate end. }
  cbn [obind] in G. destruct r as [|c' r']; [destruct fr as [[|]|]; discriminate|].
  destruct (find_suffix suffixes (c' :: r')) as [m r2] eqn:Es. destruct (find_suffix_split _ _ _ Es) as [u [_ [Hr _]]].
  destruct (add_fraction _ _ _ _) as [y| | | |] eqn:Ey in G; try discriminate.
  - cbn [obind] in G. destruct ar.
    + destruct (recur r2) as [[b e]| | | |] eqn:Er; try discriminate.
      * cbn [obind] in G. destruct e as [e|]; [|discriminate]. destruct (snd (span ws (skipn e s))); discriminate.
      * exists r2. split; [|exact Er]. rewrite Hr, app_length. lia.
    + cbn [obind] in G. match type of G with match ?b with _ => _ end = _ => destruct b; discriminate end.
  - exfalso. clear - Ey. revert Ey. generalize (match fr with Some f => f | None => [] end) as f, 10 as td, (w64 (a * m)) as v0.
    induction f as [|c f IH]; intros td v0 H; cbn [add_fraction] in H; [discriminate|]. cbv zeta in H.
    repeat match type of H with (if ?b then _ else _) = _ => destruct b; [discriminate|] end.
    exact (IH _ _ H).
Qed.

Lemma cast_deep : forall depth ar pre s, (List.length s < depth)%nat -> cast_rec depth ar pre s <> TooDeep.
Proof.
  induction depth as [|depth IH]; intros ar pre s Hd H; [lia|]. cbn [cast_rec] in H.
  pose proof (span_length ws s) as Hl. destruct (snd (span ws s)) as [|c s1] eqn:Es; [discriminate|].
  remember (c :: s1) as t1 eqn:Et1.
  assert (Hne : (0 < List.length t1)%nat) by (subst t1; cbn; lia). clear Et1.
  destruct (if pre then find_prefix prefixes t1 else None) as [[[radix num] r]|] eqn:Ep.
  - destruct pre; [|discriminate]. destruct (find_prefix_inv _ _ _ _ Ep) as [p [s' [Hrad [Ht1 [Hp Hnn]]]]].
    destruct (cast_rest_deep _ _ _ _ _ _ H) as [r2 [Hr2 Hrec]]. eapply IH; [|exact Hrec].
    pose proof (parse_length s' (prefix_digits radix)) as Hpl. rewrite Hp in Hpl. cbn [snd] in Hpl.
    assert (0 < List.length p)%nat.
    { destruct (radix_spellings _ _ Hrad) as [[_ [->| ->]]|[[_ [->| ->]]|[_ ->]]]; cbn; lia. }
    rewrite Ht1, app_length in *. lia.
  - destruct (parse_numeric t1 DECIMAL_DIGITS) as [num r] eqn:Hp.
    destruct (cast_rest_deep _ _ _ _ _ _ H) as [r2 [Hr2 Hrec]]. eapply IH; [|exact Hrec].
    unfold parse_numeric in Hp. destruct (span_split (fun c => isin DECIMAL_DIGITS c || ws c) t1) as [H1 _].
    destruct (span (fun c => isin DECIMAL_DIGITS c || ws c) t1) as [a b]. cbn [fst snd] in H1. injection Hp as Hp1 Hp2. subst b.
    destruct a as [|x a].
    + cbn [filter] in Hp1. subst num. discriminate.
    + rewrite H1 in *. cbn [app List.length] in *. rewrite app_length in *. lia.
Qed.

(** Without a point nothing but a value or an exception comes out. *)
Definition no_point (s : text) : Prop := Forall (fun c => c <> "."%char) s.

Lemma cast_plain : forall depth ar pre s, (List.length s < depth)%nat -> no_point s ->
  cast_rec depth ar pre s = Refused \/ exists v, cast_rec depth ar pre s = Done v.
Proof.
  assert (Hrest : forall recur ar s radix num r, no_point num ->
     (forall r2, (exists u, r = u ++ r2) -> recur r2 = Refused \/ recur r2 = TooDeep \/ exists v, recur r2 = Done v) ->
     cast_rest recur ar s radix num r = Refused \/ cast_rest recur ar s radix num r = TooDeep \/
     exists v, cast_rest recur ar s radix num r = Done v).
  { intros recur ar s radix num r Hnp Hrec. unfold cast_rest. destruct num as [|c num]; [auto|].
    rewrite (split_none _ Hnp). cbv beta iota.
    unfold lexical_cast. cbv zeta. destruct (digits_value radix (c :: num) <? 2 ^ 64); [|auto].
    cbn [obind]. destruct r as [|c' r']; [eauto|]. destruct (find_suffix suffixes (c' :: r')) as [m r2] eqn:Es.
    destruct (find_suffix_split _ _ _ Es) as [u [_ [Hr _]]].
    cbn [add_fraction obind]. destruct ar.
    - destruct (Hrec r2 (ex_intro _ u Hr)) as [E|[E|[[a e] E]]]; rewrite E; cbn [obind]; [auto|auto|].
      destruct e as [e|]; [|eauto]. destruct (snd (span ws (skipn e s))); eauto.
    - cbn [obind]. destruct (snd (span ws (skipn _ s))); eauto. }
  assert (G : forall depth ar pre s, no_point s ->
    cast_rec depth ar pre s = Refused \/ cast_rec depth ar pre s = TooDeep \/ exists v, cast_rec depth ar pre s = Done v).
  { induction depth as [|depth IH]; intros ar pre s Hnp; [auto|]. cbn [cast_rec].
    destruct (span_split ws s) as [Hsp _]. destruct (snd (span ws s)) as [|c s1] eqn:Es; [eauto|].
    remember (c :: s1) as t1 eqn:Et1. clear Et1.
    assert (Ht1 : no_point t1) by (unfold no_point in *; rewrite Hsp in Hnp; apply Forall_app in Hnp; exact (proj2 Hnp)).
    assert (Hpar : forall x D num r, no_point x -> parse_numeric x D = (num, r) -> no_point num /\ no_point r).
    { intros x D num r Hx Hp. unfold parse_numeric in Hp. destruct (span_split (fun c => isin D c || ws c) x) as [H1 _].
      destruct (span (fun c => isin D c || ws c) x) as [a b]. cbn [fst snd] in H1. injection Hp as <- <-. unfold no_point in *.
      rewrite H1 in Hx. apply Forall_app in Hx. destruct Hx as [Ha Hb]. split; [|exact Hb].
      apply Forall_forall. intros y Hy. apply filter_In in Hy. rewrite Forall_forall in Ha. apply Ha. exact (proj1 Hy). }
    destruct (if pre then find_prefix prefixes t1 else None) as [[[radix num] r]|] eqn:Ep.
    - destruct pre; [|discriminate]. destruct (find_prefix_inv _ _ _ _ Ep) as [p [s' [Hrad [Ht [Hp Hnn]]]]].
      assert (Hs' : no_point s') by (unfold no_point in *; rewrite Ht in Ht1; apply Forall_app in Ht1; exact (proj2 Ht1)).
      destruct (Hpar _ _ _ _ Hs' Hp) as [Hn Hr]. apply Hrest; [exact Hn|]. intros r2 [u ->]. apply IH.
      unfold no_point in *. apply Forall_app in Hr. exact (proj2 Hr).
    - destruct (parse_numeric t1 DECIMAL_DIGITS) as [num r] eqn:Hp. destruct (Hpar _ _ _ _ Ht1 Hp) as [Hn Hr].
      apply Hrest; [exact Hn|]. intros r2 [u ->]. apply IH. unfold no_point in *. apply Forall_app in Hr. exact (proj2 Hr). }
  intros depth ar pre s Hd Hnp. destruct (G depth ar pre s Hnp) as [H|[H|H]]; auto.
  destruct (cast_deep depth ar pre s Hd H).
Qed.
