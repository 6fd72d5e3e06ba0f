(** C61, C62: the value of a number given as text (parameters, command line, expressions). *)
From Coq Require Import List NArith ZArith Arith Bool Ascii String Lia.
From Verif Require Import LayoutModel StorageModel LexCastModel LexCastSpec LexCastProofs.
Import ListNotations.
Open Scope N_scope.

(** A number whose parts are well formed, that can be read in one way only, and whose fractions the parser takes
    (sparta/sparta/utils/SmartLexicalCast.hpp 64-162). *)
Definition well_formed (l : literal) : Prop :=
  match l_head l with Some h => head_ok h | None => True end /\
  Forall term_ok (l_terms l) /\ Forall fraction_ok (l_terms l) /\ unambiguous l.

(** The examples' number 0x1Fg 1.25M 3Ki 7 and a spelling of it. *)
Definition ex_lit : literal :=
  mkLit (Some (mkHead (str "0x") (str "1F") (str "g")))
        [mkTerm (str "1") (str "25") (str "M"); mkTerm (str "3") [] (str "Ki"); mkTerm (str "7") [] []].
Definition ex_text : text := str " 0x 1_Fg,1. 25 M3Ki 7 ".

(** A decision procedure for [spelled] (separators: sparta/sparta/utils/SmartLexicalCast.hpp 111), used in the examples. *)
Fixpoint spells (n : nat) (toks : list text) (s : text) : bool :=
  match n with
  | O => false
  | Datatypes.S n' =>
      match s with
      | [] => match toks with [] => true | _ => false end
      | c :: r =>
          if ws c then spells n' toks r
          else match toks with
               | [] => false
               | t :: tl => match after t s with Some r' => spells n' tl r' | None => false end
               end
      end
  end.
Lemma spells_ok n : forall toks s, spells n toks s = true -> spelled toks s.
Proof.
  induction n as [|n IH]; intros toks s H; [discriminate|]. cbn [spells] in H.
  destruct s as [|c r]; [destruct toks; [constructor; constructor|discriminate]|].
  destruct (ws c) eqn:E; [apply spelled_sep; [apply ws_separator; exact E|apply IH; exact H]|].
  destruct toks as [|t tl]; [discriminate|]. destruct (after t (c :: r)) as [r'|] eqn:Ea; [|discriminate].
  apply after_inv in Ea. rewrite Ea. apply (sp_token [] t); [constructor|]. apply IH. exact H.
Qed.
Ltac spell := apply (spells_ok 60); vm_compute; reflexivity.

Lemma ex_spelled : spelled (tokens ex_lit) ex_text.
Proof. spell. Qed.

Ltac digs := repeat (constructor; [vm_compute; discriminate|]); try constructor.

Lemma ex_well_formed : well_formed ex_lit.
Proof.
  split; [|split; [|split]].
  - exists 16. split; [reflexivity|]. split; [digs|]. split; [discriminate|vm_compute; discriminate].
  - repeat constructor; cbn [t_int t_frac t_unit]; try (vm_compute; discriminate); try (left; discriminate).
  - repeat constructor; cbn [t_frac]; unfold str; cbn [list_ascii_of_string List.length]; try lia;
      try (intros c d Hc Hd; destruct i; discriminate).
    + destruct i as [|[|[|i]]]; cbn in H; try discriminate; injection H as <-; vm_compute in H0; injection H0 as <-; discriminate.
    + destruct i as [|[|[|i]]]; cbn in H; try discriminate; injection H as <-; vm_compute in H0; injection H0 as <-;
        [exists 200000|exists 50000]; reflexivity.
    + destruct i as [|i]; discriminate.
    + destruct i as [|i]; discriminate.
    + destruct i as [|i]; discriminate.
    + destruct i as [|i]; discriminate.
  - split; [cbn; repeat split; discriminate|]. cbn. intros _. discriminate.
Qed.

(** C61. The value: a text spelling a well-formed number whose value is below 2^64 is read as exactly that value, whatever
    separators it contains, up to all prefixes, suffixes, fractions and any number of summands. *)
Theorem C61_value : forall l s v,
  well_formed l -> lit_value l v -> v < 2 ^ 64 -> spelled (tokens l) s -> cast_u64 s = Done v.
Proof.
  intros [h ts] s v [Hh [Hok [Hfr [Hun Hz]]]] Hv Hlt Hs.
  unfold cast_u64, cast_u64_opt, text_depth. unfold tokens in Hs. unfold lit_value in Hv.
  cbn [l_head l_terms] in *. destruct h as [h|].
  - destruct Hv as [a [b [[radix [Hr Ha]] [Hb ->]]]]. cbn [app] in Hun.
    rewrite (cast_head h ts _ s a b radix) by (try assumption; lia). reflexivity.
  - cbn [app] in Hs, Hun. rewrite cast_no_prefix by (eapply terms_no_prefix; eassumption).
    rewrite (cast_terms ts _ s v) by (try assumption; lia). reflexivity.
Qed.
Example C61_value_ex : well_formed ex_lit /\ lit_value ex_lit (31 * 1000000000 + 1250000 + 3072 + 7) /\
  spelled (tokens ex_lit) ex_text /\ cast_u64 ex_text = Done 31001253079.
Proof.
  split; [exact ex_well_formed|]. split.
  - exists (31 * 1000000000), (1250000 + (3072 + (7 + 0))). split; [exists 16; split; reflexivity|].
    split; [|reflexivity]. repeat constructor.
  - split; [exact ex_spelled|]. vm_compute. reflexivity.
Qed.
Print Assumptions C61_value.

(** C61. What is accepted: a text that is read as a value spells some number - at most one radix prefix, at the start;
    decimal summands; known suffixes; nothing else - and, if no fraction has more than nine digits, the value is the sum
    of the number's parts, with the digits of fractions rounded down, modulo 2^64. *)
Theorem C61_accepted : forall s v, cast_u64 s = Done v ->
  exists l, match l_head l with Some h => head_ok h | None => True end /\ Forall term_ok (l_terms l) /\
    spelled (tokens l) s /\ (Forall short (l_terms l) -> v = lit_floor l mod 2 ^ 64).
Proof.
  intros s v H. unfold cast_u64 in H. destruct (cast_u64_opt true true s) as [[v' e]| | | |] eqn:E; try discriminate.
  cbn [obind] in H. injection H as ->. unfold cast_u64_opt in E.
  destruct (cast_sound _ _ _ _ _ E) as [_ [l [_ [H1 [H2 [H3 H4]]]]]]. exists l. auto.
Qed.
Example C61_accepted_ex : cast_u64 (str "2.5ki,0.3m 017") = Done (2560 + 300000 + 17).
Proof. vm_compute. reflexivity. Qed.
Print Assumptions C61_accepted.

(** C61. No other character: in a text that is read as a value every character is a separator, a digit of some radix, a
    point, the letter of a prefix or a letter of a suffix; in particular there is no sign. *)
Theorem C61_alphabet : forall s v, cast_u64 s = Done v ->
  Forall (fun c => separator c \/ digit 16 c <> None \/ c = "."%char \/
                   In (lower c) (map N_of_ascii (str "xbnkmgtpi"))) s.
Proof.
  intros s v H. destruct (C61_accepted s v H) as [l [Hh [Ht [Hs _]]]].
  set (P := fun c => separator c \/ digit 16 c <> None \/ c = "."%char \/ In (lower c) (map N_of_ascii (str "xbnkmgtpi"))).
  assert (Hsp : forall toks s, Forall (Forall P) toks -> spelled toks s -> Forall P s).
  { intros toks s0 HP Hsp. induction Hsp as [w Hw|w t tl s' Hw _ IH].
    - revert Hw. apply Forall_impl. intros c Hc. left. exact Hc.
    - inversion HP as [|x y H1 H2]. subst. apply Forall_app. split; [revert Hw; apply Forall_impl; intros c Hc; left; exact Hc|].
      apply Forall_app. split; [exact H1|exact (IH H2)]. }
  assert (Hdig : forall r c, digit r c <> None -> r <= 16 -> P c).
  { intros r c Hc Hr. right. left. unfold digit in *. destruct ((48 <=? lower c) && (lower c <=? 57)).
    - destruct (lower c - 48 <? r) eqn:E; [|contradiction]. apply N.ltb_lt in E.
      replace (lower c - 48 <? 16) with true by (symmetry; apply N.ltb_lt; lia). discriminate.
    - destruct ((97 <=? lower c) && (lower c <=? 102)); [|contradiction].
      destruct (lower c - 87 <? r) eqn:E; [|contradiction]. apply N.ltb_lt in E.
      replace (lower c - 87 <? 16) with true by (symmetry; apply N.ltb_lt; lia). discriminate. }
  assert (Hsing : forall r ds, r <= 16 -> all_digits r ds -> Forall (Forall P) (singles ds)).
  { intros r ds Hr Hd. apply Forall_forall. intros t Hin. apply in_map_iff in Hin. destruct Hin as [c [<- Hc]].
    constructor; [|constructor]. unfold all_digits in Hd. rewrite Forall_forall in Hd. exact (Hdig r c (Hd _ Hc) Hr). }
  assert (Hunit : forall u, unit_value u <> None -> Forall (Forall P) (unit_token u)).
  { intros u Hu. destruct u as [|c u]; [constructor|]. cbn [unit_token]. constructor; [|constructor].
    destruct (unit_value (c :: u)) as [m|] eqn:E; [|contradiction]. pose proof (unit_row _ _ E ltac:(discriminate)) as Hin.
    assert (G : forallb (fun row => forallb (fun c => existsb (N.eqb (lower c)) (map N_of_ascii (str "xbnkmgtpi"))) (fst row)) suffixes = true)
      by (vm_compute; reflexivity).
    rewrite forallb_forall in G. specialize (G _ Hin). cbn [fst] in G. rewrite forallb_forall in G.
    apply Forall_forall. intros x Hx. specialize (G _ Hx). apply existsb_exists in G. destruct G as [y [Hy Ey]].
    apply N.eqb_eq in Ey. right. right. right. rewrite Ey. exact Hy. }
  apply (Hsp (tokens l)); [|exact Hs]. unfold tokens. apply Forall_app. split.
  - destruct (l_head l) as [h|]; [|constructor]. destruct Hh as [r [Hr [Hd [_ Hu]]]]. unfold head_tokens.
    constructor; [|apply Forall_app; split; [|apply Hunit; exact Hu]].
    + assert (Hb : forallb (fun c => match digit 16 c with Some _ => true | None => false end ||
                                     existsb (N.eqb (lower c)) (map N_of_ascii (str "xbnkmgtpi"))) (h_prefix h) = true)
        by (destruct (radix_spellings _ _ Hr) as [[_ [->| ->]]|[[_ [->| ->]]|[_ ->]]]; vm_compute; reflexivity).
      rewrite forallb_forall in Hb. apply Forall_forall. intros c Hc. specialize (Hb c Hc). apply orb_prop in Hb.
      destruct Hb as [Hb|Hb].
      * right. left. destruct (digit 16 c); discriminate.
      * apply existsb_exists in Hb. destruct Hb as [y [Hy Ey]]. apply N.eqb_eq in Ey. right. right. right. rewrite Ey. exact Hy.
    + destruct (radix_spellings _ _ Hr) as [[-> _]|[[-> _]|[-> _]]]; eapply Hsing; try exact Hd; lia.
  - clear - Ht Hsing Hunit. induction Ht as [|t ts [Hi [Hf [_ Hu]]] _ IH]; cbn [map List.concat]; [constructor|].
    apply Forall_app. split; [|exact IH]. unfold term_tokens. apply Forall_app. split; [eapply Hsing; [|exact Hi]; lia|].
    apply Forall_app. split; [|apply Hunit; exact Hu]. destruct (t_frac t) as [|c f] eqn:Ef; [constructor|].
    constructor; [constructor; [right; right; left; reflexivity|constructor]|]. eapply Hsing; [|exact Hf]; lia.
Qed.
Example C61_alphabet_ex : cast_u64 (str "0xfG") = Done 15000000000 /\ cast_u64 (str "12$") = Refused /\ cast_u64 (str "-1") = Refused.
Proof. vm_compute. auto. Qed.
Print Assumptions C61_alphabet.

(** C61. Nothing but a value or an exception: for a text without a point, with or without the options, the call returns
    or throws a SpartaException - no failed assertion, no undefined behaviour, and the recursion ends. *)
Theorem C61_safe_partial : forall recursion prefix s, Forall (fun c => c <> "."%char) s ->
  cast_u64_opt recursion prefix s = Refused \/ exists v, cast_u64_opt recursion prefix s = Done v.
Proof.
  intros ar pre s H. unfold cast_u64_opt, text_depth. apply cast_plain; [lia|exact H].
Qed.
Example C61_safe_partial_ex : Forall (fun c => c <> "."%char) (str "5k5k0x") /\ cast_u64_opt true true (str "5k5k0x") = Refused /\
  cast_u64_opt false true (str "5k5k") = Refused /\ cast_u64_opt false true (str "0x5k") = Done (5000, Some 4%nat).
Proof. split; [repeat constructor; discriminate|]. vm_compute. auto. Qed.
Print Assumptions C61_safe_partial.

(** C61. The recursion ends for every text. *)
Theorem C61_ends : forall recursion prefix s, cast_u64_opt recursion prefix s <> TooDeep.
Proof. intros ar pre s. unfold cast_u64_opt, text_depth. apply cast_deep. lia. Qed.
Example C61_ends_ex : cast_u64_opt true true (str "1k1k1k1k1k1k1k1k") = Done (8000, None).
Proof. vm_compute. reflexivity. Qed.
Print Assumptions C61_ends.

(** C61. end_pos: with recursion allowed, the default, a text that is read as a value is read to its end, and end_pos is
    npos. *)
Theorem C61_end_pos : forall prefix s v e, cast_u64_opt true prefix s = Done (v, e) -> e = None.
Proof. intros prefix s v e H. unfold cast_u64_opt in H. exact (proj1 (cast_sound _ _ _ _ _ H)). Qed.
Example C61_end_pos_ex : cast_u64_opt true true (str "5k ,") = Done (5000, None).
Proof. vm_compute. reflexivity. Qed.
Print Assumptions C61_end_pos.

(** C61, not as documented: end_pos is npos if all characters are consumed (sl 123) fails when recursion is not
    allowed and the text ends in a suffix: reading "5k" leaves 2. *)
Theorem C61_end_pos_refuted : exists s v e,
  cast_u64_opt false true s = Done (v, Some e) /\ e = List.length s.
Proof. exists (str "5k"), 5000, 2%nat. vm_compute. auto. Qed.
Print Assumptions C61_end_pos_refuted.

(** C61, not as expected: a number too large for 64 bits is refused only if its digits alone are; after multiplication by
    the suffix, and in the sum, it wraps silently. 20000p, 2 * 10^19, is read as 1553255926290448384. *)
Theorem C61_overflow_refuted : exists l s v v',
  well_formed l /\ lit_value l v /\ 2 ^ 64 <= v /\ spelled (tokens l) s /\ cast_u64 s = Done v'.
Proof.
  exists (mkLit None [mkTerm (str "20000") [] (str "p")]), (str "20000p"), (20000 * 1000 ^ 5 + 0), 1553255926290448384.
  split; [split; [exact Logic.I|split; [|split]]|split; [|split; [|split]]].
  - constructor; [|constructor]. split; [digs|]. split; [constructor|]. split; [left; discriminate|vm_compute; discriminate].
  - repeat constructor; cbn; try lia; destruct i; discriminate.
  - split; [exact Logic.I|]. cbn. intros r Hr. discriminate.
  - constructor; [reflexivity|constructor].
  - vm_compute. discriminate.
  - spell.
  - vm_compute. reflexivity.
Qed.
Print Assumptions C61_overflow_refuted.

(** C61, not as documented: "guarantee NO floating point rounding errors" and the refusal of a fraction that does not
    represent an integer (sl 346-359) do not extend to the binary suffixes: 0.3ki is 307.2, and is read as 307. *)
Theorem C61_fraction_refuted : exists l s v,
  Forall term_ok (l_terms l) /\ l_head l = None /\ (forall x, ~ lit_value l x) /\ spelled (tokens l) s /\ cast_u64 s = Done v.
Proof.
  exists (mkLit None [mkTerm (str "0") (str "3") (str "ki")]), (str "0.3ki"), 307.
  split; [repeat constructor; cbn; try discriminate; left; discriminate|]. split; [reflexivity|]. split.
  - intros x H. unfold lit_value in H. cbn [l_head l_terms] in H. inversion H as [|t ts v vs Hv Hvs E1 E2]. subst.
    unfold term_value in Hv. cbn [t_frac t_int t_unit] in Hv. change (10 ^ N.of_nat (List.length (str "3"))) with 10 in Hv.
    change (positional 10 (str "0" ++ str "3") * factor (str "ki")) with 3072 in Hv.
    apply (f_equal (fun x => x mod 10)) in Hv. rewrite N.mod_mul in Hv by discriminate. discriminate.
  - split; [|vm_compute; reflexivity]. spell.
Qed.
Print Assumptions C61_fraction_refuted.

(** C61, not as expected: a digit 0 in a fraction is refused, although the number is whole: 1.05M is 1050000. *)
Theorem C61_fraction_zero_refuted : exists l s v,
  Forall term_ok (l_terms l) /\ unambiguous l /\ lit_value l v /\ v < 2 ^ 64 /\ spelled (tokens l) s /\ cast_u64 s = Refused.
Proof.
  exists (mkLit None [mkTerm (str "1") (str "05") (str "M")]), (str "1.05M"), (1050000 + 0).
  split; [repeat constructor; cbn; try discriminate; left; discriminate|].
  split; [split; [exact Logic.I|]; cbn; intros r Hr; discriminate|].
  split; [constructor; [reflexivity|constructor]|]. split; [reflexivity|].
  split; [|vm_compute; reflexivity]. spell.
Qed.
Print Assumptions C61_fraction_zero_refuted.

(** C61, not as expected: from the tenth digit of a fraction on the place is computed modulo 2^32. 0.1111111111p is
    111111111100000, and is read as 111111111709186. *)
Theorem C61_fraction_place_refuted : exists l s v v',
  Forall term_ok (l_terms l) /\ unambiguous l /\ lit_value l v /\ v < 2 ^ 64 /\ spelled (tokens l) s /\
  cast_u64 s = Done v' /\ v' <> v.
Proof.
  exists (mkLit None [mkTerm (str "0") (str "1111111111") (str "p")]), (str "0.1111111111p"), (111111111100000 + 0), 111111111709186.
  split; [repeat constructor; cbn; try discriminate; left; discriminate|].
  split; [split; [exact Logic.I|]; cbn; intros r Hr; injection Hr as <-; split; [reflexivity|left; discriminate]|].
  split; [constructor; [reflexivity|constructor]|]. split; [reflexivity|].
  split; [|split; [vm_compute; reflexivity|discriminate]].
  spell.
Qed.
Print Assumptions C61_fraction_place_refuted.

(** C61, not as expected: 33 digits in a fraction divide by zero - the place 10^32 is 0 modulo 2^32; two points in one
    summand fail an assertion. *)
Theorem C61_crash_refuted :
  (exists ds, List.length ds = 33%nat /\ all_digits 10 ds /\ cast_u64 ("."%char :: ds ++ str "p") = Undefined) /\
  (exists s, cast_u64 s = Asserted).
Proof.
  split.
  - exists (repeat "1"%char 33). split; [reflexivity|]. split; [digs|]. vm_compute. reflexivity.
  - exists (str "1.2.3k"). vm_compute. reflexivity.
Qed.
Print Assumptions C61_crash_refuted.

(** C61, not as expected: a run of decimal digits need not be read in one radix. 019 is neither 19 nor refused but
    octal 1 plus decimal 9, and 0b12 is binary 1 plus decimal 2. *)
Theorem C61_radix_refuted :
  (exists s, all_digits 10 s /\ cast_u64 s = Done 10 /\ positional 10 s = 19) /\
  (exists s, cast_u64 (str "0b" ++ s) = Done 3 /\ s = str "12").
Proof.
  split.
  - exists (str "019"). split; [digs|]. vm_compute. auto.
  - exists (str "12"). vm_compute. auto.
Qed.
Print Assumptions C61_radix_refuted.

(** C62. Unsigned types: a text spelling a well-formed number below 2^64 is read as its value by the 32, 16 and 8 bit
    casts if the type holds it, and refused otherwise. *)
Theorem C62_unsigned : forall bits l s v,
  well_formed l -> lit_value l v -> v < 2 ^ 64 -> spelled (tokens l) s ->
  (v < 2 ^ bits -> cast_unsigned bits s = Done v) /\ (2 ^ bits <= v -> cast_unsigned bits s = Refused).
Proof.
  intros bits l s v H1 H2 H3 H4. unfold cast_unsigned. rewrite (C61_value l s v H1 H2 H3 H4). cbn [obind]. split; intros H.
  - apply N.leb_gt in H. rewrite H. reflexivity.
  - apply N.leb_le in H. rewrite H. reflexivity.
Qed.
Example C62_unsigned_ex : cast_unsigned 32 ex_text = Refused /\ cast_unsigned 64 ex_text = Done 31001253079 /\
  cast_unsigned 8 (str "0xFF") = Done 255 /\ cast_unsigned 8 (str "256") = Refused.
Proof. vm_compute. auto. Qed.
Print Assumptions C62_unsigned.

(** C62. An accepted value always fits the unsigned type. *)
Theorem C62_unsigned_fits : forall bits s v, cast_unsigned bits s = Done v -> v < 2 ^ bits.
Proof.
  intros bits s v H. unfold cast_unsigned in H. destruct (cast_u64 s) as [x| | | |]; try discriminate. cbn [obind] in H.
  destruct (2 ^ bits <=? x) eqn:E; [discriminate|]. injection H as <-. apply N.leb_gt in E. exact E.
Qed.
Example C62_unsigned_fits_ex : cast_unsigned 16 (str "64Ki") = Refused /\ cast_unsigned 16 (str "63Ki1023") = Done 65535.
Proof. vm_compute. auto. Qed.
Print Assumptions C62_unsigned_fits.

(** The tokens of a number with or without a minus sign in front (sparta/sparta/utils/SmartLexicalCast.hpp 438-448). *)
Definition signed_tokens (negative : bool) (l : literal) : list text :=
  (if negative then [["-"%char]] else []) ++ tokens l.
(** Its value. *)
Definition signed (negative : bool) (v : N) : Z := if negative then (- Z.of_N v)%Z else Z.of_N v.

Lemma cast_i64_value neg l s v : well_formed l -> lit_value l v -> v < 2 ^ 64 -> spelled (signed_tokens neg l) s ->
  cast_i64 s = if negb neg && (2 ^ 63 <=? v) || neg && (2 ^ 63 <? v) then Refused
               else if neg then (if v =? 2 ^ 63 then Undefined else Done (- Z.of_N v)%Z) else Done (Z.of_N v).
Proof.
  intros Hw Hv Hlt Hs. unfold cast_i64. destruct neg; cbn [signed_tokens app] in Hs.
  - unfold signed_tokens in Hs. cbn [app] in Hs.
    pose proof (skip_spelled (["-"%char] :: tokens l) s ltac:(exists "-"%char, []; auto) Hs) as Hsk. cbn [starts] in Hsk.
    destruct Hsk as [r [Er Hr]]. rewrite Er. cbn [app]. rewrite Ascii.eqb_refl.
    rewrite (C61_value l r v Hw Hv Hlt Hr). reflexivity.
  - unfold signed_tokens in Hs. cbn [app] in Hs. pose proof (C61_value l s v Hw Hv Hlt Hs) as Hc.
    assert (Hm : forall c r, snd (span ws s) = c :: r -> Ascii.eqb c "-"%char = false).
    { intros c r E. destruct (Ascii.eqb c "-"%char) eqn:Em; [|reflexivity]. apply Ascii.eqb_eq in Em. subst c. exfalso.
      pose proof (C61_alphabet _ _ Hc) as Ha. destruct (span_split ws s) as [Hsp _]. rewrite E in Hsp. rewrite Hsp in Ha.
      apply Forall_app in Ha. destruct Ha as [_ Ha]. inversion Ha as [|x y Hx _]. subst.
      destruct Hx as [Hx|[Hx|[Hx|Hx]]].
      - apply ws_separator in Hx. discriminate.
      - apply Hx. reflexivity.
      - discriminate.
      - vm_compute in Hx. intuition discriminate. }
    destruct (snd (span ws s)) as [|c r] eqn:Es.
    + rewrite Hc. reflexivity.
    + rewrite (Hm c r eq_refl). rewrite Hc. reflexivity.
Qed.

Ltac zif := match goal with |- context [(Z.leb ?a ?b || Z.ltb ?c ?d)%bool] =>
  destruct (Z.leb_spec a b); destruct (Z.ltb_spec c d); cbn [orb]; try lia end.

(** C62. int64_t and int32_t: a possibly signed text is read as its value if the type holds it - the smallest int64_t
    apart - and refused otherwise. *)
Theorem C62_signed_partial : forall neg l s v,
  well_formed l -> lit_value l v -> v < 2 ^ 64 -> spelled (signed_tokens neg l) s ->
  ((- 2 ^ 63 < signed neg v < 2 ^ 63)%Z -> cast_i64 s = Done (signed neg v)) /\
  ((signed neg v < - 2 ^ 63 \/ 2 ^ 63 <= signed neg v)%Z -> cast_i64 s = Refused) /\
  ((- 2 ^ 31 <= signed neg v < 2 ^ 31)%Z -> cast_i32 s = Done (signed neg v)) /\
  ((signed neg v < - 2 ^ 31 \/ 2 ^ 31 <= signed neg v)%Z -> signed neg v <> (- 2 ^ 63)%Z -> cast_i32 s = Refused).
Proof.
  intros neg l s v Hw Hv Hlt Hs. pose proof (cast_i64_value neg l s v Hw Hv Hlt Hs) as E.
  assert (Hin : (- 2 ^ 63 < signed neg v < 2 ^ 63)%Z -> cast_i64 s = Done (signed neg v)).
  { intros H. rewrite E. unfold signed in *. change (2 ^ 63)%Z with 9223372036854775808%Z in H.
    change (2 ^ 63) with 9223372036854775808. destruct neg; cbn [negb andb orb].
    - replace (9223372036854775808 <? v) with false by (symmetry; apply N.ltb_ge; lia).
      replace (v =? 9223372036854775808) with false by (symmetry; apply N.eqb_neq; lia). reflexivity.
    - replace (9223372036854775808 <=? v) with false by (symmetry; apply N.leb_gt; lia). reflexivity. }
  assert (Hout : (signed neg v < - 2 ^ 63 \/ 2 ^ 63 <= signed neg v)%Z -> cast_i64 s = Refused).
  { intros H. rewrite E. unfold signed in *. change (2 ^ 63)%Z with 9223372036854775808%Z in H.
    change (2 ^ 63) with 9223372036854775808. destruct neg; cbn [negb andb orb].
    - replace (9223372036854775808 <? v) with true by (symmetry; apply N.ltb_lt; lia). reflexivity.
    - replace (9223372036854775808 <=? v) with true by (symmetry; apply N.leb_le; lia). reflexivity. }
  split; [exact Hin|]. split; [exact Hout|]. generalize dependent (signed neg v). intros z Hin Hout.
  change (2 ^ 63)%Z with 9223372036854775808%Z in *. change (2 ^ 31)%Z with 2147483648%Z. unfold cast_i32. clear E. split.
  - intros H. rewrite Hin by lia. cbn [obind]. change (2 ^ 31)%Z with 2147483648%Z.
    zif.
    f_equal. unfold to_signed. change (2 ^ (32 - 1))%Z with 2147483648%Z. change (2 ^ 32)%Z with 4294967296%Z.
    rewrite Z.mod_small by (clear - H; lia). clear. lia.
  - intros H Hz. destruct (Z_lt_dec z (-9223372036854775808)) as [H1|H1]; [rewrite Hout by lia; reflexivity|].
    destruct (Z_le_dec 9223372036854775808 z) as [H2|H2]; [rewrite Hout by lia; reflexivity|].
    rewrite Hin by lia. cbn [obind]. change (2 ^ 31)%Z with 2147483648%Z.
    zif; reflexivity.
Qed.
Example C62_signed_partial_ex : spelled (signed_tokens true (mkLit None [mkTerm (str "3") [] (str "k"); mkTerm (str "5") [] []])) (str " - 3k5") /\
  cast_i64 (str " - 3k5") = Done (-3005)%Z /\ cast_i32 (str "-2147483648") = Done (-2147483648)%Z /\
  cast_i32 (str "2147483648") = Refused /\ cast_i64 (str "9223372036854775808") = Refused.
Proof.
  split; [spell|]. vm_compute. auto 10.
Qed.
Print Assumptions C62_signed_partial.

(** C62. int16_t and int8_t: a value the type holds is read exactly, one whose magnitude reaches 2^16 or 2^8 upwards is
    refused, and so is one below -2^16 or -2^8. *)
Theorem C62_small_partial : forall neg l s v,
  well_formed l -> lit_value l v -> v < 2 ^ 63 -> spelled (signed_tokens neg l) s ->
  ((- 2 ^ 15 <= signed neg v < 2 ^ 15)%Z -> cast_i16 s = Done (signed neg v)) /\
  ((signed neg v < - 2 ^ 16 \/ 2 ^ 16 <= signed neg v)%Z -> cast_i16 s = Refused) /\
  ((- 2 ^ 7 <= signed neg v < 2 ^ 7)%Z -> cast_i8 s = Done (signed neg v)) /\
  ((signed neg v < - 2 ^ 8 \/ 2 ^ 8 <= signed neg v)%Z -> cast_i8 s = Refused).
Proof.
  intros neg l s v Hw Hv Hlt Hs.
  destruct (C62_signed_partial neg l s v Hw Hv) as [Hin _].
  { eapply N.lt_trans; [exact Hlt|]. reflexivity. }
  { exact Hs. }
  assert (E : cast_i64 s = Done (signed neg v)).
  { apply Hin. change (2 ^ 63)%Z with 9223372036854775808%Z. change (2 ^ 63) with 9223372036854775808 in Hlt.
    unfold signed. destruct neg; lia. }
  clear Hin. unfold cast_i16, cast_i8. rewrite E. cbn [obind]. generalize (signed neg v). intros z.
  unfold to_signed. change (2 ^ (16 - 1))%Z with 32768%Z. change (2 ^ (8 - 1))%Z with 128%Z.
  change (2 ^ 15)%Z with 32768%Z. change (2 ^ 16)%Z with 65536%Z. change (2 ^ 7)%Z with 128%Z. change (2 ^ 8)%Z with 256%Z.
  repeat split; intros H.
  - zif.
    rewrite Z.mod_small by lia. f_equal. lia.
  - zif; reflexivity.
  - zif.
    rewrite Z.mod_small by lia. f_equal. lia.
  - zif; reflexivity.
Qed.
Example C62_small_partial_ex : cast_i16 (str "-32Ki") = Done (-32768)%Z /\ cast_i16 (str "65536") = Refused /\
  cast_i8 (str "127") = Done 127%Z /\ cast_i8 (str "-257") = Refused.
Proof. vm_compute. auto. Qed.
Print Assumptions C62_small_partial.

(** C62, not as expected: the bounds tested for int16_t and int8_t are those of one bit more (sl 483-484, 497-498), so
    40000 is read as -25536 and 200 as -56. *)
Theorem C62_small_refuted :
  (exists v s, spelled (tokens (mkLit None [mkTerm s [] []])) s /\ v = positional 10 s /\ 2 ^ 15 <= v /\ cast_i16 s = Done (-25536)%Z) /\
  (exists v s, spelled (tokens (mkLit None [mkTerm s [] []])) s /\ v = positional 10 s /\ 2 ^ 7 <= v /\ cast_i8 s = Done (-56)%Z).
Proof.
  split; [exists 40000, (str "40000")|exists 200, (str "200")]; (split; [|split; [reflexivity|split; [vm_compute; discriminate|vm_compute; reflexivity]]]);
    spell.
Qed.
Print Assumptions C62_small_refuted.

(** C62, not as expected: reading the smallest int64_t multiplies it by -1 (sl 457-459), which overflows. *)
Theorem C62_int64_min_refuted : exists s, s = str "-9223372036854775808" /\ cast_i64 s = Undefined.
Proof. eexists. split; [reflexivity|]. vm_compute. reflexivity. Qed.
Print Assumptions C62_int64_min_refuted.

(** C62, not as expected: since the 64-bit value has wrapped before, a number far too large can be read as a small
    unsigned value: 18446744073709552k as 384 in 16 bits. *)
Theorem C62_wrap_refuted : exists l s v, well_formed l /\ lit_value l v /\ 2 ^ 64 <= v /\ spelled (tokens l) s /\
  cast_unsigned 16 s = Done 384.
Proof.
  exists (mkLit None [mkTerm (str "18446744073709552") [] (str "k")]), (str "18446744073709552k"), (18446744073709552000 + 0).
  split; [split; [exact Logic.I|split; [|split]]|split; [|split; [|split]]].
  - constructor; [|constructor]. split; [digs|]. split; [constructor|]. split; [left; discriminate|vm_compute; discriminate].
  - repeat constructor; cbn; try lia; destruct i; discriminate.
  - split; [exact Logic.I|]. cbn. intros r Hr. discriminate.
  - constructor; [reflexivity|constructor].
  - vm_compute. discriminate.
  - spell.
  - vm_compute. reflexivity.
Qed.
Print Assumptions C62_wrap_refuted.

(** C62, not as expected: a lone minus sign is read as 0. *)
Theorem C62_minus_refuted : cast_i64 (str "-") = Done 0%Z /\ cast_i32 (str " - ") = Done 0%Z.
Proof. vm_compute. auto. Qed.
Print Assumptions C62_minus_refuted.
