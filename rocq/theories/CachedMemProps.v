(** C42: CachedMemory commits and drops writes transparently. *)
From Coq Require Import List NArith Arith Bool Lia Sorted.
From Verif Require Import LayoutModel LayoutProofs ArchDataModel ArchDataProofs ArchDataProps BitArrayProps CachedMemModel CachedMemProofs.
Import ListNotations.
Open Scope N_scope.

(** The specification: system memory, the outstanding writes (id, address, bytes) oldest first, the last id given, and
    which blocks this cache holds. *)
Record smemory := mkS { s_down : N -> N; s_out : list (N * (N * list N)); s_uid : N; s_blk : list N }.
(** What a client of the cache must see. *)
Definition s_view (s : smemory) : N -> N := view (s_down s) (map snd (s_out s)).
Definition has_id (id : N) (l : list (N * (N * list N))) : bool := existsb (fun w => fst w =? id) l.
(** The writes before the one with the given id. *)
Fixpoint before (id : N) (l : list (N * (N * list N))) : list (N * (N * list N)) :=
  match l with [] => [] | w :: r => if fst w =? id then [] else w :: before id r end.
Definition touches (addr : N) (buf : list N) (w : N * (N * list N)) : bool :=
  let '(_, (a, l)) := w in (addr <? a + N.of_nat (length l)) && (a <? addr + N.of_nat (length buf)).
Definition cspec (k total wm : N) (s : smemory) (o : cop) : smemory :=
  match o with
  | CWrite addr buf =>
      if legal k total addr (N.of_nat (length buf)) && negb (N.of_nat (length (s_out s)) =? wm)
      then mkS (s_down s) (s_out s ++ [(s_uid s + 1, (addr, buf))]) (s_uid s + 1) (addr / 2 ^ k :: s_blk s) else s
  | CCommit id =>
      match s_out s with
      | (i, (addr, buf)) :: r => if i =? id then mkS (over (s_down s) addr buf) r (s_uid s) (s_blk s) else s
      | [] => s
      end
  | CDrop id => if has_id id (s_out s) then mkS (s_down s) (before id (s_out s)) (s_uid s) (s_blk s) else s
  | CPoke addr buf | COther addr buf => mkS (over (s_down s) addr buf) (s_out s) (s_uid s) (s_blk s)
  end.
(** The uses that are safe: accesses of at least a byte that do not wrap; pokes and merges only within a block the cache
    holds (a poke may cross blocks, all held); pokes only where no write is outstanding. *)
Definition tidy (k total : N) (s : smemory) (o : cop) : Prop :=
  match o with
  | CWrite addr buf => (1 <= length buf)%nat /\ addr + N.of_nat (length buf) < 2 ^ 64
  | CCommit _ | CDrop _ => True
  | CPoke addr buf => (1 <= length buf)%nat /\ addr + N.of_nat (length buf) <= total /\
      (forall b, addr <= b < addr + N.of_nat (length buf) -> In (b / 2 ^ k) (s_blk s)) /\ existsb (touches addr buf) (s_out s) = false
  | COther addr buf => (1 <= length buf)%nat /\ legal k total addr (N.of_nat (length buf)) = true /\ In (addr / 2 ^ k) (s_blk s)
  end.
Fixpoint all_tidy (k total wm : N) (s : smemory) (ops : list cop) : Prop :=
  match ops with [] => True | o :: r => tidy k total s o /\ all_tidy k total wm (cspec k total wm s o) r end.

Section CMP.
  Variables (k total wm : N).
  Hypothesis Hk : k <= 30.
  Hypothesis HT : total < 2 ^ 64.
  Hypothesis HM : total mod 2 ^ k = 0.
  Notation L := (2 ^ k).

  Definition abs (w : swr) : N * (N * list N) := (w_id w, (w_addr w, w_data w)).
  Record J (c : cmem) (s : smemory) : Prop := {
    j_W : W k total (c_mem c);
    j_out : map abs (c_out c) = s_out s;
    j_down : forall b, d_byte (c_down c) b = s_down s b;
    j_dk : k <= d_k (c_down c); j_ds : total <= d_size (c_down c);
    j_uid : c_uid c = s_uid s; j_wm : c_wm c = wm;
    j_shows : shows (c_mem c) (view (s_down s) (map ad (c_out c)));
    j_prevs : prevs k total (s_down s) (c_out c);
    j_blk : forall b, lb (c_mem c) b <> None <-> In (b / L) (s_blk s);
    j_in : forall w, In w (c_out c) -> In (w_addr w / L) (s_blk s);
    j_ids : StronglySorted N.lt (map w_id (c_out c)); j_idb : forall w, In w (c_out c) -> w_id w <= c_uid c
  }.
  Lemma snd_abs : forall l, map snd (map abs l) = map ad l.
  Proof. intros l. rewrite map_map. reflexivity. Qed.
  Lemma J_view : forall c s, J c s -> s_view s = view (s_down s) (map ad (c_out c)).
  Proof. intros c s H. unfold s_view. rewrite <- (j_out c s H), snd_abs. reflexivity. Qed.

  Lemma small : forall x, x < 2 ^ 64 -> w64 x = x.
  Proof. clear. intros x H. apply w64_small. exact H. Qed.
  Lemma spans_legal : forall k' addr size, 1 <= size -> addr + size < 2 ^ 64 ->
    spans k' addr size = negb (addr mod 2 ^ k' + size <=? 2 ^ k').
  Proof.
    clear. intros k' addr size H1 H2. unfold spans. f_equal. rewrite !N.shiftr_div_pow2.
    replace (addr + size + (2 ^ 64 - 1)) with (addr + size - 1 + 1 * 2 ^ 64) by lia.
    unfold w64. rewrite N.mod_add by discriminate. rewrite N.mod_small by lia.
    pose proof (idx_split k' addr) as IA. pose proof (modL k' addr) as MA. pose proof (Lpos k') as LP.
    destruct (N.leb_spec (addr mod 2 ^ k' + size) (2 ^ k')) as [D|D].
    - apply N.eqb_eq. symmetry. symmetry. apply N.div_unique with (addr + size - 1 - addr / 2 ^ k' * 2 ^ k'); lia.
    - apply N.eqb_neq. intros E. pose proof (idx_split k' (addr + size - 1)) as IB. pose proof (modL k' (addr + size - 1)) as MB.
      rewrite <- E in IB. lia.
  Qed.
  Lemma access_legal : forall addr size, 1 <= size -> addr + size < 2 ^ 64 ->
    legal k total addr size = negb (spans k addr size) && in_window total addr size.
  Proof.
    clear wm. intros addr size H1 H2. rewrite spans_legal by assumption. rewrite negb_involutive. unfold in_window. rewrite small by exact H2.
    destruct (N.leb_spec (addr mod L + size) L) as [D|D]; unfold legal.
    - cbn [andb]. destruct (N.leb_spec (addr mod L + size) L); [|lia]. rewrite andb_true_r.
      destruct (N.ltb_spec addr total) as [C|C]; destruct (N.leb_spec (addr + size) total) as [E|E]; try reflexivity; try lia.
      exfalso. assert (HL : legal k total addr size = true).
      { unfold legal. apply andb_true_intro. split; [apply N.ltb_lt|apply N.leb_le]; assumption. }
      destruct (legal_end k total HM addr size HL). lia.
    - cbn [andb]. destruct (N.leb_spec (addr mod L + size) L); [lia|]. apply andb_false_r.
  Qed.
  Lemma down_legal : forall d addr buf, k <= d_k d -> total <= d_size d -> (1 <= length buf)%nat ->
    legal k total addr (N.of_nat (length buf)) = true ->
    down_try_write d addr buf = mkDown (d_k d) (d_size d) (put (d_byte d) addr buf).
  Proof.
    intros d addr buf HK HS H1 HL. destruct (legal_end k total HM _ _ HL) as [E1 [E2 E3]].
    unfold down_try_write, in_window. rewrite small by lia.
    destruct (N.leb_spec (addr + N.of_nat (length buf)) (d_size d)); [|lia].
    replace (spans (d_k d) addr (N.of_nat (length buf))) with false; [reflexivity|]. symmetry.
    assert (H2 : addr + N.of_nat (length buf) < 2 ^ 64) by lia.
    assert (H3 : 1 <= N.of_nat (length buf)) by lia.
    pose proof (spans_legal k addr _ H3 H2) as S1. unfold spans in *.
    destruct (N.leb_spec (addr mod L + N.of_nat (length buf)) L); [|lia]. cbn [negb] in S1.
    apply negb_false_iff in S1. apply N.eqb_eq in S1. apply negb_false_iff, N.eqb_eq.
    replace (d_k d) with (k + (d_k d - k)) by lia. rewrite <- !N.shiftr_shiftr, S1. reflexivity.
  Qed.

  Lemma peek_down : forall d addr size f, (forall b, d_byte d b = f b) -> total <= d_size d -> addr + size <= total ->
    down_peek d addr size = Some (bytes_of f addr size).
  Proof.
    intros d addr size f HF HS HE. unfold down_peek, in_window. rewrite small by lia.
    destruct (N.leb_spec (addr + size) (d_size d)); [|lia]. f_equal. change (take (d_byte d) addr size) with (bytes_of (d_byte d) addr size).
    apply bytes_ext. intros. apply HF.
  Qed.

  Lemma cached_lb : forall c addr, W k total (c_mem c) -> (cached c addr = None <-> lb (c_mem c) addr = None).
  Proof.
    intros c addr Wc. unfold cached, lb. rewrite (W_lsb _ _ _ Wc), (W_L _ _ _ Wc), N.shiftr_div_pow2.
    destruct (find_line _ _); split; congruence.
  Qed.
  Lemma same_blk : forall addr size b, addr mod L + size <= L -> addr <= b -> b < addr + size -> b / L = addr / L.
  Proof. exact (same_block k). Qed.

  Lemma read_in_ok : forall c s addr size, J c s -> legal k total addr size = true -> 1 <= size ->
    read_in c addr size = Done (bytes_of (s_view s) addr size).
  Proof.
    intros c s addr size H HL H1. destruct (legal_end k total HM _ _ HL) as [E1 [E2 E3]]. unfold read_in.
    rewrite (W_size _ _ _ (j_W c s H)). destruct (N.ltb_spec addr total); [|lia]. cbn [negb]. rewrite (J_view c s H).
    pose proof (cached_lb c addr (j_W c s H)) as CL. destruct (cached c addr) as [x|].
    - apply (read_shows k total Hk HT HM); [apply (j_W c s H)|apply (j_shows c s H)|exact HL|]. intros X. apply CL in X. discriminate.
    - assert (NB : lb (c_mem c) addr = None) by (apply CL; reflexivity).
      assert (NI : ~ In (addr / L) (s_blk s)) by (intros X; apply (j_blk c s H) in X; congruence).
      rewrite (peek_down _ _ _ (s_down s)); [|apply (j_down c s H)|apply (j_ds c s H)|exact E1]. f_equal.
      apply bytes_ext. intros b B1 B2. symmetry. apply view_out. intros w Hw.
      destruct (over_dec (w_addr w) (w_data w) b) as [[C1 C2]|C]; [|exact C]. exfalso. apply NI.
      pose proof (prevs_wok _ _ _ _ _ (j_prevs c s H) Hw) as [_ [_ WL]]. destruct (legal_end k total HM _ _ WL) as [_ [_ W3]].
      rewrite <- (same_blk addr size b E3 B1 B2). rewrite (same_blk _ _ b W3 C1 C2). apply (j_in c s H). exact Hw.
  Qed.
  Lemma read_ok' : forall c s addr size, J c s -> 1 <= size -> addr + size < 2 ^ 64 ->
    cm_read c addr size = if legal k total addr size then Done (bytes_of (s_view s) addr size) else Refused.
  Proof.
    intros c s addr size H H1 H2. unfold cm_read. rewrite (W_lsb _ _ _ (j_W c s H)), (W_size _ _ _ (j_W c s H)).
    pose proof (access_legal addr size H1 H2) as A. destruct (spans k addr size); cbn [negb andb] in A; [rewrite A; reflexivity|].
    rewrite A. destruct (in_window total addr size) eqn:EW; [|reflexivity].
    apply read_in_ok; assumption.
  Qed.

  Lemma top : total + L <= 2 ^ 64.
  Proof.
    clear wm. pose proof (Lpos k) as LP. pose proof (N.div_mod total L ltac:(lia)) as DT. rewrite HM, N.add_0_r in DT.
    assert (D64 : 2 ^ 64 = 2 ^ (64 - k) * L) by (rewrite <- N.pow_add_r; f_equal; lia).
    rewrite D64 in HT |- *. rewrite DT, (N.mul_comm L) in HT. apply N.mul_lt_mono_pos_r in HT; [|exact LP].
    rewrite DT. rewrite (N.mul_comm L). replace (total / L * L + L) with ((total / L + 1) * L) by lia.
    apply N.mul_le_mono_r. lia.
  Qed.
  Lemma block_end_eq' : forall c a, W k total (c_mem c) -> a < total ->
    N.shiftl (N.shiftr (w64 (a + a_L (c_mem c))) (a_lsb (c_mem c))) (a_lsb (c_mem c)) = (a / L + 1) * L.
  Proof.
    intros c a Wc Ha. rewrite (W_lsb _ _ _ Wc), (W_L _ _ _ Wc). pose proof top. rewrite small by lia.
    rewrite N.shiftl_mul_pow2, N.shiftr_div_pow2. pose proof (Lpos k).
    replace (a + L) with (a + 1 * L) by lia. rewrite N.div_add by lia. reflexivity.
  Qed.
  Lemma peek_loop_ok : forall fuel c s a end_, J c s -> a < end_ -> end_ <= total -> (N.to_nat (end_ - a) < fuel)%nat ->
    peek_loop fuel c a end_ = Done (bytes_of (s_view s) a (end_ - a)).
  Proof.
    induction fuel as [|f IH]; intros c s a end_ H H1 H2 HF; [lia|]. cbn [peek_loop]. cbv zeta.
    rewrite block_end_eq' by (try apply (j_W c s H); lia).
    pose proof (Lpos k) as LP. pose proof (idx_split k a) as IA. pose proof (modL k a) as MA.
    assert (HL : forall n, a mod L + n <= L -> legal k total a n = true).
    { intros n Hn. unfold legal. apply andb_true_intro. split; [apply N.ltb_lt; lia|apply N.leb_le; exact Hn]. }
    destruct (N.leb_spec end_ ((a / L + 1) * L)) as [C|C].
    - replace (w64 (end_ + 2 ^ 64 - a)) with (end_ - a).
      2:{ replace (end_ + 2 ^ 64 - a) with (end_ - a + 1 * 2 ^ 64) by lia. unfold w64. rewrite N.mod_add by discriminate.
          symmetry. apply N.mod_small. lia. }
      apply read_in_ok; [exact H| |lia]. apply HL. lia.
    - rewrite (read_in_ok c s); [|exact H|apply HL; lia|lia].
      rewrite (IH c s); [|exact H|exact C|exact H2|lia]. f_equal.
      replace (end_ - a) with ((a / L + 1) * L - a + (end_ - (a / L + 1) * L)) by lia.
      rewrite bytes_app. f_equal. f_equal. lia.
  Qed.
  Lemma peek_ok : forall c s addr size, J c s -> 1 <= size -> addr + size < 2 ^ 64 ->
    cm_peek c addr size = if addr + size <=? total then Done (bytes_of (s_view s) addr size) else Refused.
  Proof.
    intros c s addr size H H1 H2. unfold cm_peek, in_window. rewrite (W_size _ _ _ (j_W c s H)), small by exact H2.
    destruct (N.leb_spec (addr + size) total) as [C|C]; [|reflexivity].
    rewrite (peek_loop_ok _ c s); [f_equal; f_equal; lia|exact H|lia|exact C|lia].
  Qed.

  Definition hold (s : smemory) (addr : N) : smemory := mkS (s_down s) (s_out s) (s_uid s) (addr / L :: s_blk s).
  Lemma uncovered : forall c s b, J c s -> ~ In (b / L) (s_blk s) ->
    forall w, In w (c_out c) -> b < w_addr w \/ w_addr w + N.of_nat (length (w_data w)) <= b.
  Proof.
    intros c s b H NI w Hw. destruct (over_dec (w_addr w) (w_data w) b) as [[C1 C2]|C]; [|exact C]. exfalso. apply NI.
    pose proof (prevs_wok _ _ _ _ _ (j_prevs c s H) Hw) as [_ [_ WL]]. destruct (legal_end k total HM _ _ WL) as [_ [_ W3]].
    rewrite (same_blk _ _ b W3 C1 C2). apply (j_in c s H). exact Hw.
  Qed.
  Lemma load_ok : forall c s addr, J c s -> addr < total ->
    exists c1, load_block c addr = (c1, Done tt) /\ J c1 (hold s addr) /\ lb (c_mem c1) addr <> None.
  Proof.
    intros c s addr H HA. unfold load_block. pose proof (cached_lb c addr (j_W c s H)) as CL.
    destruct (cached c addr) as [x|] eqn:EC.
    - assert (NB : lb (c_mem c) addr <> None) by (intros X; apply CL in X; discriminate).
      exists c. split; [reflexivity|]. split; [|exact NB]. pose proof (proj1 (j_blk c s H addr) NB) as IB.
      destruct H as [h1 h2 h3 h4 h5 h6 h7 h8 h9 h10 h11 h12 h13]. constructor; auto.
      + intros b. rewrite h10. cbn [hold s_blk In]. split; [auto|]. intros [E|E]; [rewrite <- E; exact IB|exact E].
      + intros w Hw. right. apply h11. exact Hw.
    - assert (NB : lb (c_mem c) addr = None) by (apply CL; reflexivity).
      assert (NI : ~ In (addr / L) (s_blk s)) by (intros X; apply (j_blk c s H) in X; congruence).
      pose proof (j_W c s H) as Wc. rewrite (W_lsb _ _ _ Wc). rewrite N.shiftl_mul_pow2, N.shiftr_div_pow2.
      pose proof (Lpos k) as LP. pose proof (idx_split k addr) as IA. pose proof (modL k addr) as MA.
      set (al := addr / L * L). assert (AI : al / L = addr / L) by (unfold al; apply N.div_mul; lia).
      assert (AT : al < total) by (unfold al; lia).
      assert (EF : find_line (addr / L) (a_lines (c_mem c)) = None).
      { unfold lb in NB. rewrite (W_L _ _ _ Wc) in NB. destruct (find_line (addr / L) (a_lines (c_mem c))); congruence. }
      pose proof Wc as [m R].
      destruct (alloc_ok nosh k total 0 1 true Hk HT HM f1 f0 fs (c_mem c) m al R AT) as [d [A1 A2]]; [rewrite AI; exact EF|].
      unfold get_line. rewrite (W_size _ _ _ Wc), (W_lsb _ _ _ Wc), N.shiftr_div_pow2.
      destruct (N.ltb_spec al total); [|lia]. cbn [negb]. rewrite AI in *. rewrite EF, A1. cbn [with_lines a_lines].
      rewrite find_app_new by exact EF.
      set (a' := with_lines (c_mem c) (a_lines (c_mem c) ++ [(addr / L, mkLine d true)])) in *.
      assert (Wa' : W k total a') by (exists m; exact A2). change (a_L _) with (a_L a'). rewrite (W_L _ _ _ Wa').
      assert (AE : al + L <= total).
      { assert (LD : legal k total al L = true).
        { unfold legal. apply andb_true_intro. split; [apply N.ltb_lt; exact AT|apply N.leb_le].
          unfold al. rewrite N.mod_mul by lia. lia. }
        apply (legal_end k total HM _ _ LD). }
      rewrite (peek_down _ _ _ (s_down s)); [|apply (j_down c s H)|apply (j_ds c s H)|exact AE].
      change (a_lsb (with_lines _ _)) with (a_lsb a'). rewrite (W_lsb _ _ _ Wa'), N.shiftr_div_pow2, AI.
      unfold raw_fill. replace (find_line (addr / L) (a_lines a')) with (Some (mkLine d true))
        by (symmetry; unfold a'; cbn [with_lines a_lines]; apply find_app_new; exact EF).
      cbn [l_dirty]. set (nl := mkLine (bytes_of (s_down s) al L) true).
      eexists. split; [reflexivity|].
      assert (FL : forall i, find_line i (set_line (addr / L) nl (a_lines a')) = if i =? addr / L then Some nl else find_line i (a_lines (c_mem c))).
      { intros i. destruct (N.eqb_spec i (addr / L)) as [->|Ne].
        - rewrite find_set_eq; [reflexivity|]. unfold a'; cbn [with_lines a_lines]. rewrite find_app_new by exact EF. discriminate.
        - rewrite find_set_ne by congruence. unfold a'; cbn [with_lines a_lines]. apply find_app_old. congruence. }
      assert (NN : forall j, j < L -> nth (N.to_nat j) (l_data nl) 0 = s_down s (addr / L * L + j)).
      { intros j Hj. unfold nl. cbn [l_data]. rewrite bytes_nth by lia. f_equal. unfold al. lia. }
      assert (W2 : W k total (with_lines a' (set_line (addr / L) nl (a_lines a')))).
      { exists (fun b => if b / L =? addr / L then Some (s_down s b) else m b).
        destruct A2 as [r1 r2 r3 r4 r5 r6 r7]. constructor; cbn [with_lines a_lsb a_size a_fill a_fsz a_free a_lines]; auto.
        - intros i x Hx. rewrite FL in Hx. destruct (N.eqb_spec i (addr / L)) as [->|Ne].
          + injection Hx as <-. split; [unfold nl; cbn [l_data]; apply bytes_len|]. intros j Hj. rewrite NN by exact Hj.
            unfold content. rewrite N.div_add_l, (N.div_small j), N.add_0_r, N.eqb_refl by lia. reflexivity.
          + destruct (ri_line _ _ _ _ _ _ _ R _ _ Hx) as [X1 X2]. split; [exact X1|]. intros j Hj. rewrite X2 by exact Hj.
            unfold content. rewrite N.div_add_l, (N.div_small j), N.add_0_r by lia. destruct (N.eqb_spec i (addr / L)); [congruence|reflexivity].
        - intros b Hb. rewrite FL in Hb. destruct (N.eqb_spec (b / L) (addr / L)); [discriminate|].
          apply (ri_none _ _ _ _ _ _ _ R). exact Hb. }
      assert (LB : forall b, lb (with_lines a' (set_line (addr / L) nl (a_lines a'))) b = if b / L =? addr / L then Some (s_down s b) else lb (c_mem c) b).
      { intros b. unfold lb. rewrite (W_L _ _ _ W2), (W_L _ _ _ Wc). cbn [with_lines a_lines]. rewrite FL.
        destruct (N.eqb_spec (b / L) (addr / L)) as [E|E]; [|reflexivity]. f_equal. rewrite NN by apply modL.
        f_equal. rewrite <- E. symmetry. apply idx_split. }
      split.
      + destruct H as [h1 h2 h3 h4 h5 h6 h7 h8 h9 h10 h11 h12 h13] eqn:EH. pose proof H as H'.
        constructor; cbn [with_mem c_mem c_out c_uid c_wm c_down hold s_down s_out s_uid s_blk]; auto.
        * intros b v Hv. rewrite LB in Hv. destruct (N.eqb_spec (b / L) (addr / L)) as [E|E]; [|apply h8; exact Hv].
          injection Hv as <-. symmetry. apply view_out. apply (uncovered c s b H'). rewrite E. exact NI.
        * intros b. rewrite LB. cbn [In]. destruct (N.eqb_spec (b / L) (addr / L)) as [E|E].
          -- split; [intros _; left; congruence|intros _; discriminate].
          -- rewrite h10. split; [auto|]. intros [X|X]; [congruence|exact X].
        * intros w Hw. right. apply h11. exact Hw.
      + cbn [with_mem c_mem]. rewrite LB, N.eqb_refl. discriminate.
  Qed.

  Lemma SS_snoc : forall l x, StronglySorted N.lt l -> (forall y, In y l -> y < x) -> StronglySorted N.lt (l ++ [x]).
  Proof.
    clear. induction l as [|a l IH]; intros x H H'; cbn [app]; [repeat constructor|].
    apply StronglySorted_inv in H. destruct H as [H1 H2]. constructor.
    - apply IH; [exact H1|]. intros y Hy. apply H'. right. exact Hy.
    - apply Forall_app. split; [exact H2|]. constructor; [apply H'; left; reflexivity|constructor].
  Qed.
  Lemma write_J : forall c s addr buf, J c s -> (1 <= length buf)%nat -> addr + N.of_nat (length buf) < 2 ^ 64 ->
    exists c' e, cm_write c addr buf = (c', e) /\ J c' (cspec k total wm s (CWrite addr buf)) /\
      if legal k total addr (N.of_nat (length buf)) && negb (N.of_nat (length (s_out s)) =? wm) then e = Done tt else rejected e.
  Proof.
    intros c s addr buf H H1 H2. unfold cm_write. pose proof (j_W c s H) as Wc. rewrite (W_lsb _ _ _ Wc), (W_size _ _ _ Wc).
    assert (H1' : 1 <= N.of_nat (length buf)) by lia.
    pose proof (access_legal addr (N.of_nat (length buf)) H1' H2) as AL. cbn [cspec].
    destruct (spans k addr (N.of_nat (length buf))); cbn [negb andb] in AL.
    { rewrite AL. cbn [andb]. eexists _, _. split; [reflexivity|]. split; [exact H|right; reflexivity]. }
    destruct (in_window total addr (N.of_nat (length buf))).
    2:{ rewrite AL. cbn [andb]. eexists _, _. split; [reflexivity|]. split; [exact H|right; reflexivity]. }
    rewrite AL. cbn [andb]. unfold write_in. rewrite (j_wm c s H).
    replace (length (c_out c)) with (length (s_out s)) by (rewrite <- (j_out c s H), map_length; reflexivity).
    destruct (N.of_nat (length (s_out s)) =? wm); cbn [negb].
    { eexists _, _. split; [reflexivity|]. split; [exact H|left; reflexivity]. }
    destruct (legal_end k total HM _ _ AL) as [E1 [E2 E3]]. rewrite (W_size _ _ _ Wc).
    destruct (N.ltb_spec addr total); [|lia]. cbn [negb].
    destruct (load_ok c s addr H E2) as [c1 [L1 [L2 L3]]]. rewrite L1. clear H0 Wc.
    pose proof (j_W _ _ L2) as W1. cbv zeta.
    rewrite (read_shows k total Hk HT HM _ _ _ _ W1 (j_shows _ _ L2) AL L3).
    destruct (write_shows k total Hk HT HM _ addr buf _ W1 (j_shows _ _ L2) AL L3) as [a2 [Q1 [Q2 [Q3 Q4]]]].
    rewrite Q1. eexists _, _. split; [reflexivity|]. split; [|reflexivity].
    destruct L2 as [h1 h2 h3 h4 h5 h6 h7 h8 h9 h10 h11 h12 h13]. cbn [hold s_down s_out s_uid s_blk] in *.
    constructor; cbn [c_mem c_out c_uid c_wm c_down s_down s_out s_uid s_blk]; auto.
    - rewrite map_app, h2, h6. reflexivity.
    - congruence.
    - rewrite map_app, view_app. cbn [map ad w_addr w_data view]. exact Q4.
    - apply (prevs_app k total). split; [exact h9|]. cbn [prevs w_addr w_data w_prev]. split; [|split; [|exact Logic.I]].
      + split; cbn [w_prev w_data w_addr]; [rewrite bytes_len; lia|]. split; [exact H1|exact AL].
      + intros b B1 B2. rewrite bytes_nth by lia. f_equal. lia.
    - intros b. rewrite <- h10. rewrite (Q3 b). tauto.
    - intros w Hw. apply in_app_or in Hw. destruct Hw as [Hw|[<-|[]]]; [apply h11; exact Hw|]. cbn [w_addr]. left. reflexivity.
    - rewrite map_app. apply SS_snoc; [exact h12|]. intros y Hy. apply in_map_iff in Hy. destruct Hy as [w [<- Hw]].
      cbn [w_id]. specialize (h13 w Hw). lia.
    - intros w Hw. apply in_app_or in Hw. destruct Hw as [Hw|[<-|[]]]; [specialize (h13 w Hw); lia|]. cbn [w_id]. lia.
  Qed.

  Lemma commit_J : forall c s id, J c s ->
    exists c' e, cm_commit c id = (c', e) /\ J c' (cspec k total wm s (CCommit id)) /\
      match s_out s with (i, _) :: _ => if i =? id then e = Done tt else rejected e | [] => rejected e end.
  Proof.
    intros c s id H. unfold cm_commit. cbn [cspec]. pose proof (j_out c s H) as HO.
    destruct (c_out c) as [|w r] eqn:EO; cbn [map abs] in HO; rewrite <- HO.
    { eexists _, _. split; [reflexivity|]. split; [exact H|left; reflexivity]. }
    cbn [abs]. destruct (N.eqb_spec (w_id w) id) as [E|E]; cbn [negb].
    2:{ eexists _, _. split; [reflexivity|]. split; [exact H|right; reflexivity]. }
    eexists _, _. split; [reflexivity|]. split; [|reflexivity].
    destruct H as [h1 h2 h3 h4 h5 h6 h7 h8 h9 h10 h11 h12 h13]. rewrite EO in *.
    destruct h9 as [p1 [p2 p3]]. pose proof p1 as [p4 [p5 p6]].
    rewrite (down_legal _ _ _ h4 h5 p5 p6).
    constructor; cbn [c_mem c_out c_uid c_wm c_down s_down s_out s_uid s_blk d_byte d_k d_size]; auto.
    - intros b. unfold put, over. rewrite h3. reflexivity.
    - intros x Hx. apply h11. right. exact Hx.
    - cbn [map] in h12. apply StronglySorted_inv in h12. apply h12.
    - intros x Hx. apply h13. right. exact Hx.
  Qed.

  Lemma before_app : forall id a b, has_id id b = true -> has_id id a = false -> before id (a ++ b) = a ++ before id b.
  Proof.
    clear. induction a as [|x a IH]; intros b Hb Ha; [reflexivity|]. cbn [app before]. unfold has_id in Ha. cbn [existsb] in Ha.
    apply orb_false_elim in Ha. destruct Ha as [H1 H2]. rewrite H1. rewrite IH by assumption. reflexivity.
  Qed.
  Lemma before_fst : forall id a b, has_id id a = true -> before id (a ++ b) = before id a.
  Proof.
    clear. induction a as [|x a IH]; intros b Ha; [discriminate|]. cbn [app before]. unfold has_id in Ha. cbn [existsb] in Ha.
    destruct (fst x =? id); [reflexivity|]. cbn [orb] in Ha. rewrite IH by exact Ha. reflexivity.
  Qed.

  Lemma drop_J : forall id rout c s, c_out c = rev rout -> J c s -> has_id id (s_out s) = true ->
    exists r a', drop_loop id rout (c_mem c) = (r, a', Done tt) /\
      J (mkCM a' (rev r) (c_uid c) (c_wm c) (c_down c)) (mkS (s_down s) (before id (s_out s)) (s_uid s) (s_blk s)).
  Proof.
    intros id rout. induction rout as [|w r IH]; intros c s EO H HI.
    { rewrite <- (j_out c s H), EO in HI. discriminate. }
    cbn [drop_loop rev] in *. pose proof H as H'. destruct H as [h1 h2 h3 h4 h5 h6 h7 h8 h9 h10 h11 h12 h13]. rewrite EO in *.
    apply (prevs_app k total) in h9. destruct h9 as [p0 [p1 [p2 _]]]. pose proof p1 as [p4 [p5 p6]].
    rewrite map_app, view_app in h8. cbn [map ad view] in h8.
    assert (NB : lb (c_mem c) (w_addr w) <> None).
    { apply h10. apply h11. apply in_or_app. right. left. reflexivity. }
    rewrite <- p4 in p6.
    destruct (write_shows k total Hk HT HM _ (w_addr w) (w_prev w) _ h1 h8 p6 NB) as [a2 [Q1 [Q2 [Q3 Q4]]]]. rewrite Q1.
    assert (Q5 : shows a2 (view (s_down s) (map ad (rev r)))).
    { eapply shows_ext; [|exact Q4]. intros b. cbv beta. destruct (over_dec (w_addr w) (w_prev w) b) as [[B1 B2]|B].
      - rewrite over_in by assumption. apply p2; [exact B1|]. rewrite <- p4. exact B2.
      - rewrite over_out by exact B. apply over_out. rewrite <- p4. exact B. }
    rewrite map_app in h2, h12. cbn [map] in h2, h12.
    assert (NW : has_id (w_id w) (map abs (rev r)) = false).
    { destruct (has_id (w_id w) (map abs (rev r))) eqn:E; [|reflexivity]. exfalso. unfold has_id in E. apply existsb_exists in E.
      destruct E as [x [X1 X2]]. apply N.eqb_eq in X2. apply in_map_iff in X1. destruct X1 as [y [<- Y]]. cbn [abs fst] in X2.
      clear - h12 Y X2. induction (rev r) as [|z l IHl]; [destruct Y|]. cbn [map app] in h12. apply StronglySorted_inv in h12.
      destruct h12 as [A B]. destruct Y as [->|Y]; [|apply IHl; assumption].
      rewrite Forall_forall in B. specialize (B (w_id w) ltac:(apply in_or_app; right; left; reflexivity)). lia. }
    assert (JR : J (mkCM a2 (rev r) (c_uid c) (c_wm c) (c_down c)) (mkS (s_down s) (map abs (rev r)) (s_uid s) (s_blk s))).
    { constructor; cbn [c_mem c_out c_uid c_wm c_down s_down s_out s_uid s_blk]; auto.
      - intros b. rewrite <- h10. rewrite (Q3 b). tauto.
      - intros x Hx. apply h11. apply in_or_app. left. exact Hx.
      - clear - h12. induction (map w_id (rev r)) as [|z l IHl]; [constructor|]. cbn [app] in h12. apply StronglySorted_inv in h12.
        destruct h12 as [A B]. constructor; [apply IHl; exact A|]. apply Forall_app in B. apply B.
      - intros x Hx. apply h13. apply in_or_app. left. exact Hx. }
    destruct (N.eqb_spec (w_id w) id) as [E|E].
    - exists r, a2. split; [reflexivity|]. rewrite <- h2. rewrite before_app.
      + cbn [before abs fst]. rewrite E, N.eqb_refl, app_nil_r. exact JR.
      + unfold has_id. cbn [existsb abs fst]. rewrite E, N.eqb_refl. reflexivity.
      + rewrite <- E. exact NW.
    - assert (HI2 : has_id id (map abs (rev r)) = true).
      { rewrite <- h2 in HI. unfold has_id in *. rewrite existsb_app in HI. cbn [existsb abs fst] in HI.
        destruct (N.eqb_spec (w_id w) id); [contradiction|]. rewrite !orb_false_r in HI. exact HI. }
      destruct (IH (mkCM a2 (rev r) (c_uid c) (c_wm c) (c_down c)) _ eq_refl JR HI2) as [r2 [a3 [R1 R2]]].
      exists r2, a3. split; [exact R1|]. rewrite <- h2, before_fst by exact HI2. exact R2.
  Qed.
  Lemma has_id_out : forall c s id, J c s -> existsb (fun w => w_id w =? id) (c_out c) = has_id id (s_out s).
  Proof.
    intros c s id H. rewrite <- (j_out c s H). unfold has_id. induction (c_out c) as [|w r IH]; [reflexivity|].
    cbn [existsb map abs fst]. rewrite IH. reflexivity.
  Qed.
  Lemma dropw_J : forall c s id, J c s ->
    exists c' e, cm_drop c id = (c', e) /\ J c' (cspec k total wm s (CDrop id)) /\ if has_id id (s_out s) then e = Done tt else rejected e.
  Proof.
    intros c s id H. unfold cm_drop. cbn [cspec]. rewrite (has_id_out c s id H).
    destruct (has_id id (s_out s)) eqn:HI; cbn [negb].
    - destruct (drop_J id (rev (c_out c)) c s) as [r [a' [R1 R2]]]; [symmetry; apply rev_involutive|exact H|exact HI|].
      rewrite R1. destruct (c_out c) eqn:EO.
      + exfalso. rewrite <- (j_out c s H), EO in HI. discriminate.
      + eexists _, _. split; [reflexivity|]. split; [exact R2|reflexivity].
    - destruct (c_out c); eexists _, _; (split; [reflexivity|]); (split; [exact H|]); [left|right]; reflexivity.
  Qed.

  (** Writing below the outstanding writes, a byte at a time. *)
  Definition below (s : smemory) (f : N -> N) : smemory := mkS f (s_out s) (s_uid s) (s_blk s).
  Record M (c : cmem) (s : smemory) (f : N -> N) : Prop := {
    m_W : W k total (c_mem c); m_out : map abs (c_out c) = s_out s; m_shows : shows (c_mem c) (view f (map ad (c_out c)));
    m_prevs : prevs k total f (c_out c); m_blk : forall b, lb (c_mem c) b <> None <-> In (b / L) (s_blk s) }.
  Lemma abs_eq : forall a b, map ad a = map ad b -> map w_id a = map w_id b -> map abs a = map abs b.
  Proof.
    clear. induction a as [|x a IH]; intros [|y b] H1 H2; try discriminate; [reflexivity|]. cbn [map] in *.
    injection H1 as A1 A2 A3. injection H2 as B1 B2. f_equal; [|apply IH; assumption]. unfold abs. congruence.
  Qed.
  Lemma merge_ok : forall buf b c s f, M c s f -> (forall i, (i < length buf)%nat -> b + N.of_nat i < total /\ In ((b + N.of_nat i) / L) (s_blk s)) ->
    exists c', merge_loop b buf c = (c', Done tt) /\ M c' s (over f b buf) /\ c_uid c' = c_uid c /\ c_wm c' = c_wm c /\ c_down c' = c_down c.
  Proof.
    induction buf as [|v r IH]; intros b c s f H HB; cbn [merge_loop].
    - exists c. split; [reflexivity|]. split; [|auto]. destruct H as [h1 h2 h3 h4 h5].
      assert (E : forall x, f x = over f b [] x) by (intros x; symmetry; apply over_out; cbn [length]; lia).
      constructor; auto.
      + eapply shows_ext; [|exact h3]. apply view_ext. exact E.
      + eapply prevs_ext; [exact E|exact h4].
    - destruct (HB 0%nat) as [B1 B2]; [cbn [length]; lia|]. rewrite N.add_0_r in B1, B2.
      assert (HB' : forall i, (i < length r)%nat -> b + 1 + N.of_nat i < total /\ In ((b + 1 + N.of_nat i) / L) (s_blk s)).
      { intros i Hi. replace (b + 1 + N.of_nat i) with (b + N.of_nat (S i)) by lia. apply HB. cbn [length]. lia. }
      assert (EO : forall x, over (over f b [v]) (b + 1) r x = over f b (v :: r) x).
      { intros x. destruct (over_dec (b + 1) r x) as [[C1 C2]|C].
        - rewrite over_in by assumption. rewrite over_in by (cbn [length]; lia).
          replace (N.to_nat (x - b)) with (S (N.to_nat (x - (b + 1)))) by lia. reflexivity.
        - rewrite over_out by exact C. destruct (N.eq_dec x b) as [->|Ne].
          + rewrite !over_in by (cbn [length]; lia). rewrite N.sub_diag. reflexivity.
          + rewrite !over_out by (cbn [length]; lia). reflexivity. }
      assert (FIN : forall c', M c' s (over (over f b [v]) (b + 1) r) -> M c' s (over f b (v :: r))).
      { intros c' [h1 h2 h3 h4 h5]. constructor; auto.
        - eapply shows_ext; [|exact h3]. apply view_ext. exact EO.
        - eapply prevs_ext; [exact EO|exact h4]. }
      rewrite small by lia. destruct H as [h1 h2 h3 h4 h5].
      pose proof (merge_hit_spec k total Hk HT HM (c_out c) f b v h4) as MH.
      assert (VB : forall x, view (over f b [v]) (map ad (c_out c)) x = if existsb (fun w => covers w x) (c_out c) then view f (map ad (c_out c)) x else over f b [v] x).
      { intros x. apply (view_below k total Hk HT HM). intros w Hw. apply (prevs_wok k total (c_out c) f w h4 Hw). }
      destruct (merge_hit b v (c_out c)) as [o|].
      + destruct MH as [X1 [X2 [X3 X4]]].
        destruct (IH (b + 1) (mkCM (c_mem c) o (c_uid c) (c_wm c) (c_down c)) s (over f b [v])) as [c' [R1 [R2 R3]]]; [|exact HB'|].
        * constructor; cbn [c_mem c_out]; auto.
          -- rewrite <- h2. apply abs_eq; assumption.
          -- rewrite X3. eapply shows_ext; [|exact h3]. intros x. rewrite VB.
             destruct (existsb (fun w => covers w x) (c_out c)) eqn:EX; [reflexivity|].
             destruct (N.eq_dec x b) as [->|Ne]; [congruence|].
             rewrite over_out by (cbn [length]; lia). apply view_out. intros w Hw.
             destruct (over_dec (w_addr w) (w_data w) x) as [C|C]; [|exact C]. exfalso.
             assert (T : existsb (fun w => covers w x) (c_out c) = true).
             { apply existsb_exists. exists w. split; [exact Hw|].
               apply (covers_spec k total Hk HT HM); [|exact C]. apply (prevs_wok k total (c_out c) f w h4 Hw). }
             congruence.
        * exists c'. split; [exact R1|]. split; [apply FIN; exact R2|exact R3].
      + destruct MH as [X1 X2].
        assert (HL : legal k total b (N.of_nat (length [v])) = true).
        { unfold legal. pose proof (modL k b). apply andb_true_intro. split; [apply N.ltb_lt; exact B1|apply N.leb_le; cbn [length]; lia]. }
        assert (NB : lb (c_mem c) b <> None) by (apply h5; exact B2).
        destruct (write_shows k total Hk HT HM _ b [v] _ h1 h3 HL NB) as [a2 [Q1 [Q2 [Q3 Q4]]]]. rewrite Q1.
        destruct (IH (b + 1) (with_mem c a2) s (over f b [v])) as [c' [R1 [R2 R3]]]; [|exact HB'|].
        * constructor; cbn [with_mem c_mem c_out]; auto.
          -- eapply shows_ext; [|exact Q4]. intros x. rewrite VB.
             destruct (existsb (fun w => covers w x) (c_out c)) eqn:EX.
             ++ apply over_out. cbn [length]. destruct (N.eq_dec x b) as [->|Ne]; [congruence|lia].
             ++ unfold over. destruct (_ && _); [reflexivity|]. apply view_out. intros w Hw.
                destruct (over_dec (w_addr w) (w_data w) x) as [C|C]; [|exact C]. exfalso.
                assert (T : existsb (fun w => covers w x) (c_out c) = true).
                { apply existsb_exists. exists w. split; [exact Hw|].
                  apply (covers_spec k total Hk HT HM); [|exact C]. apply (prevs_wok k total (c_out c) f w h4 Hw). }
                congruence.
          -- intros x. rewrite <- h5. rewrite (Q3 x). tauto.
        * exists c'. split; [exact R1|]. split; [apply FIN; exact R2|exact R3].
  Qed.

  Lemma legal_bytes : forall s addr (buf : list N), legal k total addr (N.of_nat (length buf)) = true -> In (addr / L) (s_blk s) ->
    forall i, (i < length buf)%nat -> addr + N.of_nat i < total /\ In ((addr + N.of_nat i) / L) (s_blk s).
  Proof.
    intros s addr buf HL HI i Hi. destruct (legal_end k total HM _ _ HL) as [E1 [E2 E3]]. split; [lia|].
    rewrite (same_blk addr (N.of_nat (length buf)) (addr + N.of_nat i) E3); [exact HI|lia|lia].
  Qed.
  Lemma other_J : forall c s addr buf, J c s -> tidy k total s (COther addr buf) ->
    exists c', cstep c (COther addr buf) = (c', Done tt) /\ J c' (cspec k total wm s (COther addr buf)).
  Proof.
    intros c s addr buf H [T1 [T2 T3]]. cbn [cstep cspec].
    assert (HMg : exists c', cm_merge c addr buf = (c', Done tt) /\ M c' s (over (s_down s) addr buf) /\
              c_uid c' = c_uid c /\ c_wm c' = c_wm c /\ c_down c' = c_down c).
    { pose proof H as H'. destruct H as [h1 h2 h3 h4 h5 h6 h7 h8 h9 h10 h11 h12 h13]. unfold cm_merge.
      destruct (c_out c) as [|w r] eqn:EO.
      - cbn [map view] in h8. destruct (write_shows k total Hk HT HM _ addr buf _ h1 h8 T2) as [a2 [Q1 [Q2 [Q3 Q4]]]]; [apply h10; exact T3|].
        rewrite Q1. eexists. split; [reflexivity|]. split; [|auto].
        constructor; cbn [with_mem c_mem c_out]; rewrite ?EO; auto. intros b. rewrite <- h10. rewrite (Q3 b). tauto.
      - rewrite <- EO in *. apply merge_ok; [|apply (legal_bytes s addr buf T2 T3)]. constructor; auto. }
    destruct HMg as [c' [G1 [G2 [G3 [G4 G5]]]]]. rewrite G1. eexists. split; [reflexivity|].
    destruct H as [h1 h2 h3 h4 h5 h6 h7 h8 h9 h10 h11 h12 h13]. destruct G2 as [m1 m2 m3 m4 m5]. rewrite G5.
    rewrite (down_legal _ _ _ h4 h5 T1 T2).
    assert (EW : forall w, In w (c_out c') -> exists w', In w' (c_out c) /\ abs w' = abs w).
    { intros w Hw. assert (IW : In (abs w) (map abs (c_out c))) by (rewrite h2, <- m2; apply in_map; exact Hw).
      apply in_map_iff in IW. destruct IW as [w' [A B]]. eauto. }
    assert (EI : map w_id (c_out c') = map w_id (c_out c)).
    { assert (X : map fst (map abs (c_out c')) = map fst (map abs (c_out c))) by (rewrite m2, h2; reflexivity).
      rewrite !map_map in X. exact X. }
    constructor; cbn [c_mem c_out c_uid c_wm c_down s_down s_out s_uid s_blk d_byte d_k d_size]; auto; try congruence.
    - intros b. rewrite put_over. apply over_ext. exact h3.
    - intros w Hw. destruct (EW w Hw) as [w' [A B]]. injection B as B1 B2 B3. rewrite <- B2. apply h11. exact A.
    - intros w Hw. destruct (EW w Hw) as [w' [A B]]. injection B as B1 B2 B3. rewrite <- B1, G3. apply h13. exact A.
  Qed.

  Lemma poke_in_J : forall c s addr buf, J c s -> (1 <= length buf)%nat -> legal k total addr (N.of_nat (length buf)) = true ->
    In (addr / L) (s_blk s) -> existsb (touches addr buf) (s_out s) = false ->
    exists c', poke_in c addr buf = (c', Done tt) /\ J c' (cspec k total wm s (CPoke addr buf)).
  Proof.
    intros c s addr buf H T1 T2 T3 T4. destruct (legal_end k total HM _ _ T2) as [E1 [E2 E3]].
    pose proof (j_W c s H) as Wc.
    unfold poke_in. rewrite (W_size _ _ _ Wc). destruct (N.ltb_spec addr total); [|lia]. cbn [negb].
    assert (NB : lb (c_mem c) addr <> None) by (apply (j_blk c s H); exact T3).
    pose proof (cached_lb c addr Wc) as CL. destruct (cached c addr) as [x|]; [|exfalso; apply NB; apply CL; reflexivity].
    destruct H as [h1 h2 h3 h4 h5 h6 h7 h8 h9 h10 h11 h12 h13].
    destruct (write_shows k total Hk HT HM _ addr buf _ h1 h8 T2 NB) as [a2 [Q1 [Q2 [Q3 Q4]]]].
    cbv zeta. rewrite Q1. unfold down_poke, in_window. rewrite small by lia.
    destruct (N.leb_spec (addr + N.of_nat (length buf)) (d_size (c_down c))); [|lia].
    eexists. split; [reflexivity|].
    assert (DJ : forall w b, In w (c_out c) -> addr <= b -> b < addr + N.of_nat (length buf) -> b < w_addr w \/ w_addr w + N.of_nat (length (w_data w)) <= b).
    { intros w b Hw B1 B2. destruct (over_dec (w_addr w) (w_data w) b) as [[C1 C2]|C]; [|exact C]. exfalso.
      assert (X : existsb (touches addr buf) (s_out s) = true).
      { apply existsb_exists. exists (abs w). split; [rewrite <- h2; apply in_map; exact Hw|]. cbn [touches abs].
        apply andb_true_intro. split; apply N.ltb_lt; lia. }
      congruence. }
    cbn [cspec]. constructor; cbn [c_mem c_out c_uid c_wm c_down s_down s_out s_uid s_blk d_byte d_k d_size]; auto.
    - intros b. rewrite put_over. apply over_ext. exact h3.
    - eapply shows_ext; [|exact Q4]. intros b. destruct (over_dec addr buf b) as [[B1 B2]|B].
      + rewrite over_in by assumption. rewrite view_out by (intros w Hw; apply DJ; assumption). symmetry. apply over_in; assumption.
      + rewrite over_out by exact B. rewrite (view_below k total Hk HT HM) by (intros w Hw; apply (prevs_wok k total (c_out c) _ w h9 Hw)).
        destruct (existsb (fun w => covers w b) (c_out c)) eqn:EX; [reflexivity|]. rewrite over_out by exact B.
        apply view_out. intros w Hw. destruct (over_dec (w_addr w) (w_data w) b) as [C|C]; [|exact C]. exfalso.
        assert (X : existsb (fun w => covers w b) (c_out c) = true); [|congruence].
        apply existsb_exists. exists w. split; [exact Hw|]. apply (covers_spec k total Hk HT HM); [|exact C].
        apply (prevs_wok k total (c_out c) _ w h9 Hw).
    - clear - h9 DJ. revert h9 DJ. generalize (s_down s). induction (c_out c) as [|w r IH]; intros f h9 DJ; [exact Logic.I|].
      destruct h9 as [p1 [p2 p3]]. cbn [prevs]. split; [exact p1|]. split.
      + intros b B1 B2. rewrite over_out; [apply p2; assumption|]. destruct (over_dec addr buf b) as [[C1 C2]|C]; [|exact C].
        destruct (DJ w b (or_introl eq_refl) C1 C2); lia.
      + eapply prevs_ext; [|apply IH; [exact p3|intros w' b Hw'; apply DJ; right; exact Hw']]. intros b.
        destruct (over_dec addr buf b) as [[C1 C2]|C].
        * rewrite over_in by assumption. rewrite over_out by (apply DJ; [left; reflexivity|assumption|assumption]). symmetry. apply over_in; assumption.
        * rewrite over_out by exact C. unfold over at 1 2. destruct (_ && _); [reflexivity|]. symmetry. apply over_out. exact C.
    - intros b. rewrite <- h10. rewrite (Q3 b). tauto.
  Qed.

  Lemma J_ext : forall c f g out u bl, (forall b, f b = g b) -> J c (mkS f out u bl) -> J c (mkS g out u bl).
  Proof.
    intros c f g out u bl E [h1 h2 h3 h4 h5 h6 h7 h8 h9 h10 h11 h12 h13]. cbn [s_down s_out s_uid s_blk] in *.
    constructor; cbn [s_down s_out s_uid s_blk]; auto.
    - intros b. rewrite h3. apply E.
    - eapply shows_ext; [|exact h8]. apply view_ext. exact E.
    - eapply prevs_ext; [exact E|exact h9].
  Qed.
  Lemma over_app : forall f a (l1 l2 : list N) b, over (over f a l1) (a + N.of_nat (length l1)) l2 b = over f a (l1 ++ l2) b.
  Proof.
    clear. intros f a l1 l2 b. destruct (over_dec (a + N.of_nat (length l1)) l2 b) as [[C1 C2]|C].
    - rewrite over_in by assumption. rewrite over_in by (rewrite ?app_length; lia). rewrite app_nth2 by lia. f_equal. lia.
    - rewrite over_out by exact C. destruct (over_dec a l1 b) as [[D1 D2]|D].
      + rewrite over_in by assumption. rewrite over_in by (rewrite ?app_length; lia). symmetry. apply app_nth1. lia.
      + rewrite over_out by exact D. symmetry. apply over_out. rewrite app_length. lia.
  Qed.
  Lemma touch_part : forall addr buf a' buf' l, addr <= a' -> a' + N.of_nat (length buf') <= addr + N.of_nat (length buf) ->
    existsb (touches addr buf) l = false -> existsb (touches a' buf') l = false.
  Proof.
    clear. intros addr buf a' buf' l H1 H2. induction l as [|[i [x d]] r IH]; [reflexivity|]. cbn [existsb]. intros H.
    apply orb_false_iff in H. destruct H as [H3 H4]. rewrite (IH H4), orb_false_r. cbn [touches] in *.
    apply andb_false_iff in H3. apply andb_false_iff.
    destruct H3 as [H3|H3]; apply N.ltb_ge in H3; [left|right]; apply N.ltb_ge; lia.
  Qed.
  Lemma poke_loop_J : forall fuel c s addr buf, J c s -> tidy k total s (CPoke addr buf) -> (length buf < fuel)%nat ->
    exists c', poke_loop fuel c addr (addr + N.of_nat (length buf)) buf = (c', Done tt) /\ J c' (cspec k total wm s (CPoke addr buf)).
  Proof.
    induction fuel as [|f IH]; intros c s addr buf H T HF; [lia|]. destruct T as [T1 [T2 [T3 T4]]].
    pose proof (j_W c s H) as Wc. cbn [poke_loop]. cbv zeta. rewrite block_end_eq' by (try assumption; lia).
    pose proof (Lpos k) as LP. pose proof (idx_split k addr) as IA. pose proof (modL k addr) as MA.
    destruct (N.leb_spec (addr + N.of_nat (length buf)) ((addr / L + 1) * L)) as [C|C].
    - apply poke_in_J; auto.
      + unfold legal. apply andb_true_intro. split; [apply N.ltb_lt; lia|apply N.leb_le; lia].
      + apply T3. lia.
    - set (n := N.to_nat ((addr / L + 1) * L - addr)).
      assert (NE : addr + N.of_nat n = (addr / L + 1) * L) by (subst n; lia).
      assert (N1 : (1 <= n)%nat) by lia. assert (N2 : (n < length buf)%nat) by lia.
      assert (LF : length (firstn n buf) = n) by (rewrite firstn_length; lia).
      assert (LS : length (skipn n buf) = (length buf - n)%nat) by (rewrite skipn_length; lia).
      destruct (poke_in_J c s addr (firstn n buf) H) as [c1 [P1 P2]]; rewrite ?LF; auto.
      { unfold legal. apply andb_true_intro. split; [apply N.ltb_lt; lia|apply N.leb_le; lia]. }
      { apply T3. lia. }
      { apply (touch_part addr buf); auto; rewrite ?LF; lia. }
      rewrite P1. rewrite <- NE. replace (addr + N.of_nat (length buf)) with (addr + N.of_nat n + N.of_nat (length (skipn n buf))) by (rewrite LS; lia).
      destruct (IH c1 _ (addr + N.of_nat n) (skipn n buf) P2) as [c2 [Q1 Q2]]; [|rewrite LS; lia|].
      { cbn [tidy cspec s_blk s_out]. rewrite LS. split; [lia|]. split; [lia|]. split; [intros b Hb; apply T3; lia|].
        apply (touch_part addr buf); auto; rewrite ?LS; lia. }
      exists c2. split; [exact Q1|]. cbn [cspec s_down s_out s_uid s_blk] in *. eapply J_ext; [|exact Q2].
      intros b. rewrite <- (firstn_skipn n buf) at 3. rewrite <- over_app. rewrite LF. reflexivity.
  Qed.
  Lemma poke_J : forall c s addr buf, J c s -> tidy k total s (CPoke addr buf) ->
    exists c', cm_poke c addr buf = (c', Done tt) /\ J c' (cspec k total wm s (CPoke addr buf)).
  Proof.
    intros c s addr buf H T. pose proof (j_W c s H) as Wc. pose proof T as [T1 [T2 _]].
    unfold cm_poke, in_window. rewrite (W_size _ _ _ Wc). rewrite small by lia.
    destruct (N.leb_spec (addr + N.of_nat (length buf)) total); [|lia]. apply poke_loop_J; auto.
  Qed.

  (** Whether a call is accepted. *)
  Definition accepted (s : smemory) (o : cop) : bool :=
    match o with
    | CWrite addr buf => legal k total addr (N.of_nat (length buf)) && negb (N.of_nat (length (s_out s)) =? wm)
    | CCommit id => match s_out s with (i, _) :: _ => i =? id | [] => false end
    | CDrop id => has_id id (s_out s)
    | _ => true
    end.
  Lemma step_J : forall c s o, J c s -> tidy k total s o ->
    exists c' e, cstep c o = (c', e) /\ J c' (cspec k total wm s o) /\ if accepted s o then e = Done tt else rejected e.
  Proof.
    intros c s [addr buf|addr buf|id|id|addr buf] H T; cbn [cstep accepted].
    - destruct T as [T1 T2]. apply write_J; assumption.
    - destruct (poke_J c s addr buf H T) as [c' [P1 P2]]. eauto.
    - destruct (commit_J c s id H) as [c' [e [P1 [P2 P3]]]]. exists c', e. split; [exact P1|]. split; [exact P2|].
      destruct (s_out s) as [|[i x] r]; [exact P3|]. exact P3.
    - apply dropw_J; assumption.
    - destruct (other_J c s addr buf H T) as [c' [P1 P2]]. eauto.
  Qed.
  Lemma run_J : forall ops c s, J c s -> all_tidy k total wm s ops ->
    exists c', crun c ops = Some c' /\ J c' (fold_left (cspec k total wm) ops s).
  Proof.
    induction ops as [|o r IH]; intros c s H T; cbn [crun fold_left]; [eauto|]. destruct T as [T1 T2].
    destruct (step_J c s o H T1) as [c' [e [P1 [P2 P3]]]]. rewrite P1.
    destruct (accepted s o); [subst e|destruct P3 as [-> | ->]]; apply IH; assumption.
  Qed.
End CMP.

(** A fresh cache in front of a memory: nothing outstanding, nothing held. *)
Definition fresh (write_id : N) (d : dmem) : smemory := mkS (d_byte d) [] (w64 (N.shiftl write_id 56)) [].
Lemma make_J : forall write_id k total wm d c, cm_make write_id k total wm d = Done c -> total < 2 ^ 64 -> k <= d_k d -> total <= d_size d ->
  k <= 30 /\ total mod 2 ^ k = 0 /\ J k total wm c (fresh write_id d).
Proof.
  intros write_id k total wm d c H HT HK HS. unfold cm_make in H. destruct (mem_make k total 0 1 true) as [a| | | |] eqn:E; try discriminate.
  injection H as <-. destruct (make_facts _ _ _ _ _ _ E) as [F1 [F2 _]]. split; [exact F1|]. split; [exact F2|].
  pose proof (make_ok _ _ _ _ _ _ E) as R.
  assert (EL : a_lines a = []).
  { unfold mem_make in E. destruct (line_mask (2 ^ k)); destruct ((total =? 0) || negb (total mod 2 ^ k =? 0));
      vm_compute in E; try discriminate; injection E as <-; reflexivity. }
  assert (NB : forall b, lb a b = None) by (intros b; unfold lb; rewrite EL; reflexivity).
  constructor; cbn [c_mem c_out c_uid c_wm c_down fresh s_down s_out s_uid s_blk map prevs]; auto.
  - eexists. exact R.
  - intros b v Hv. rewrite NB in Hv. discriminate.
  - intros b. rewrite NB. cbn [In]. tauto.
  - constructor.
  - intros w [].
Qed.

(** After any history of writes, commits and drops, of other agents' writes merged into blocks the cache holds and of
    pokes (of any number of blocks held) clear of outstanding writes: reads and peeks show the outstanding writes on top of the downstream memory, which
    only commits, pokes and the other agents changed. "Partial": the downstream memory is at least as large and has blocks
    at least as large; pokes and merges restricted as in [tidy] - see the refutations below. *)
Theorem C42_view_partial : forall write_id k total wm d c ops,
  cm_make write_id k total wm d = Done c -> total < 2 ^ 64 -> k <= d_k d -> total <= d_size d ->
  all_tidy k total wm (fresh write_id d) ops ->
  exists c', crun c ops = Some c' /\ let s := fold_left (cspec k total wm) ops (fresh write_id d) in
    (forall addr size, 1 <= size -> addr + size < 2 ^ 64 ->
       cm_read c' addr size = if legal k total addr size then Done (bytes_of (s_view s) addr size) else Refused) /\
    (forall addr size, 1 <= size -> addr + size < 2 ^ 64 ->
       cm_peek c' addr size = if addr + size <=? total then Done (bytes_of (s_view s) addr size) else Refused) /\
    (forall b, d_byte (c_down c') b = s_down s b) /\
    map (fun w => (w_id w, (w_addr w, w_data w))) (c_out c') = s_out s.
Proof.
  intros write_id k total wm d c ops HC HT HK HS HO. destruct (make_J _ _ _ _ _ _ HC HT HK HS) as [F1 [F2 F3]].
  destruct (run_J k total wm F1 HT F2 ops c _ F3 HO) as [c' [R1 R2]]. exists c'. split; [exact R1|]. cbv zeta.
  split; [intros; apply (read_ok' k total wm F1 HT F2); assumption|].
  split; [intros; apply (peek_ok k total wm F1 HT F2); assumption|].
  split; [apply (j_down _ _ _ _ _ R2)|apply (j_out _ _ _ _ _ R2)].
Qed.
Print Assumptions C42_view_partial.

(** Which calls are accepted: a write that fits while fewer than the watermark are outstanding, a commit of exactly the
    oldest write, a drop of any outstanding one. *)
Theorem C42_accepted_partial : forall write_id k total wm d c ops o,
  cm_make write_id k total wm d = Done c -> total < 2 ^ 64 -> k <= d_k d -> total <= d_size d ->
  all_tidy k total wm (fresh write_id d) (ops ++ [o]) ->
  exists c', crun c ops = Some c' /\
    if accepted k total wm (fold_left (cspec k total wm) ops (fresh write_id d)) o then snd (cstep c' o) = Done tt
    else rejected (snd (cstep c' o)).
Proof.
  intros write_id k total wm d c ops o HC HT HK HS HO. destruct (make_J _ _ _ _ _ _ HC HT HK HS) as [F1 [F2 F3]].
  assert (SP : forall ops s, all_tidy k total wm s (ops ++ [o]) -> all_tidy k total wm s ops /\ tidy k total (fold_left (cspec k total wm) ops s) o).
  { clear. induction ops as [|x r IH]; intros s H; cbn [app all_tidy fold_left] in *; [split; [exact I|apply H]|].
    destruct H as [H1 H2]. destruct (IH _ H2). auto. }
  destruct (SP _ _ HO) as [O1 O2].
  destruct (run_J k total wm F1 HT F2 ops c _ F3 O1) as [c' [R1 R2]]. exists c'. split; [exact R1|].
  destruct (step_J k total wm F1 HT F2 c' _ o R2 O2) as [c2 [e [P1 [P2 P3]]]]. rewrite P1. exact P3.
Qed.
Print Assumptions C42_accepted_partial.

(** Sixteen-byte blocks over a memory whose byte at b is b mod 256: two overlapping writes, another agent's write across
    both and beyond, commit of the oldest; then drop of the others and a poke over a block border. *)
Definition ex_down : dmem := mkDown 4 256 (fun b => b mod 256).
Definition ex_cops : list cop := [CWrite 32 [1; 2; 3; 4]; CWrite 34 [5; 6; 7; 8]; COther 33 [11; 12; 13; 14; 15; 16]; CWrite 100 [9]; CCommit 1].
Example C42_ex : exists c c1 c2, cm_make 0 4 256 8 ex_down = Done c /\ all_tidy 4 256 8 (fresh 0 ex_down) (ex_cops ++ [CWrite 48 [70; 71]; CPoke 44 [77]; CDrop 2; CPoke 47 [78; 79]]) /\
  crun c ex_cops = Some c1 /\ cm_read c1 32 8 = Done [1; 2; 5; 6; 7; 8; 16; 39] /\ d_byte (c_down c1) 34 = 3 /\
  crun c (ex_cops ++ [CWrite 48 [70; 71]; CPoke 44 [77]; CDrop 2; CPoke 47 [78; 79]]) = Some c2 /\ cm_read c2 32 8 = Done [1; 2; 3; 4; 14; 15; 16; 39] /\
  cm_peek c2 42 61 = Done (42 :: 43 :: 77 :: 45 :: 46 :: 78 :: 79 :: bytes_of (fun b => b) 49 54) /\ d_byte (c_down c2) 48 = 79 /\ c_out c2 = [].
Proof.
  eexists _, _, _. split; [vm_compute; reflexivity|]. split; [|repeat (split; [vm_compute; reflexivity|]); vm_compute; reflexivity].
  cbn [app ex_cops all_tidy tidy].
  repeat match goal with
  | |- _ /\ _ => split | |- True => exact I | |- In _ _ => vm_compute; tauto | |- _ = _ => vm_compute; reflexivity
  | |- forall b, _ <= b < _ -> _ => let b := fresh in let H := fresh in intros b H; cbn [length] in H; first
      [ assert (b = 44) as -> by lia; vm_compute; tauto | assert (D : b = 47 \/ b = 48) by lia; destruct D as [-> | ->]; vm_compute; tauto ]
  | |- _ <= _ => vm_compute; discriminate
  | |- _ < _ => vm_compute; reflexivity | |- (_ <= _)%nat => cbn [length]; lia
  end.
Qed.

(** poke of a block that is not held destroys it downstream: the fresh zero-filled line is poked there (cm 372). *)
Theorem C42_poke_refuted : exists c c', cm_make 0 4 256 8 ex_down = Done c /\ crun c [CPoke 44 [77]] = Some c' /\
  cm_read c 40 1 = Done [40] /\ d_byte (c_down c') 40 = 0 /\ cm_read c' 40 1 = Done [0].
Proof. eexists _, _. split; [vm_compute; reflexivity|]. split; [vm_compute; reflexivity|]. repeat split; vm_compute; reflexivity. Qed.
Print Assumptions C42_poke_refuted.
(** After a poke over an outstanding write, dropping the write undoes the poke in the cache but not downstream. *)
Theorem C42_poke_drop_refuted : exists c c', cm_make 0 4 256 8 ex_down = Done c /\
  crun c [CWrite 32 [1]; CPoke 32 [77]; CDrop 1] = Some c' /\ c_out c' = [] /\ cm_read c' 32 1 = Done [32] /\ d_byte (c_down c') 32 = 77.
Proof. eexists _, _. split; [vm_compute; reflexivity|]. split; [vm_compute; reflexivity|]. repeat split; vm_compute; reflexivity. Qed.
Print Assumptions C42_poke_drop_refuted.
(** Merging another agent's write into a block that is not held makes the rest of the block read as zero. *)
Theorem C42_merge_refuted : exists c c', cm_make 0 4 256 8 ex_down = Done c /\ crun c [COther 44 [77]] = Some c' /\
  cm_read c 40 1 = Done [40] /\ d_byte (c_down c') 40 = 40 /\ cm_read c' 40 1 = Done [0].
Proof. eexists _, _. split; [vm_compute; reflexivity|]. split; [vm_compute; reflexivity|]. repeat split; vm_compute; reflexivity. Qed.
Print Assumptions C42_merge_refuted.
(** A downstream memory with smaller blocks loses a committed write that crosses one of its block borders: the result of
    tryWrite is ignored (cm 414). *)
Theorem C42_commit_lost_refuted : exists c c', cm_make 0 4 256 8 (mkDown 3 256 (fun b => b mod 256)) = Done c /\
  crun c [CWrite 38 [1; 2; 3; 4]; CCommit 1] = Some c' /\ c_out c' = [] /\ cm_read c' 38 1 = Done [1] /\ d_byte (c_down c') 38 = 38.
Proof. eexists _, _. split; [vm_compute; reflexivity|]. split; [vm_compute; reflexivity|]. repeat split; vm_compute; reflexivity. Qed.
Print Assumptions C42_commit_lost_refuted.

(** getOutstandingWritesForAddr: exactly the outstanding writes that contain the byte, oldest first. *)
Theorem C42_writes_for_partial : forall write_id k total wm d c ops b,
  cm_make write_id k total wm d = Done c -> total < 2 ^ 64 -> k <= d_k d -> total <= d_size d ->
  all_tidy k total wm (fresh write_id d) ops ->
  exists c', crun c ops = Some c' /\
    map (fun w => (w_id w, (w_addr w, w_data w))) (writes_for c' b) =
    filter (fun x => let '(_, (a, l)) := x in (a <=? b) && (b <? a + N.of_nat (length l))) (s_out (fold_left (cspec k total wm) ops (fresh write_id d))).
Proof.
  intros write_id k total wm d c ops b HC HT HK HS HO. destruct (make_J _ _ _ _ _ _ HC HT HK HS) as [F1 [F2 F3]].
  destruct (run_J k total wm F1 HT F2 ops c _ F3 HO) as [c' [R1 R2]]. exists c'. split; [exact R1|].
  rewrite <- (j_out _ _ _ _ _ R2). unfold writes_for. pose proof (j_prevs _ _ _ _ _ R2) as P. clear - P HT F1 F2.
  revert P. generalize (s_down (fold_left (cspec k total wm) ops (fresh write_id d))). induction (c_out c') as [|w r IH]; intros f P; [reflexivity|].
  destruct P as [P1 [P2 P3]]. cbn [map filter abs]. pose proof (covers_spec k total F1 HT F2 w b P1) as CS.
  assert (EQ : covers w b = (w_addr w <=? b) && (b <? w_addr w + N.of_nat (length (w_data w)))).
  { apply Bool.eq_iff_eq_true. rewrite CS, andb_true_iff, N.leb_le, N.ltb_lt. tauto. }
  rewrite <- EQ. destruct (covers w b); cbn [map]; rewrite (IH _ P3); reflexivity.
Qed.
Print Assumptions C42_writes_for_partial.
Example C42_writes_for_ex : exists c c', cm_make 0 4 256 8 ex_down = Done c /\ crun c (firstn 4 ex_cops) = Some c' /\
  map w_id (writes_for c' 35) = [1; 2] /\ map w_id (writes_for c' 36) = [2] /\ writes_for c' 38 = [].
Proof. eexists _, _. split; [vm_compute; reflexivity|]. split; [vm_compute; reflexivity|]. repeat split; vm_compute; reflexivity. Qed.
