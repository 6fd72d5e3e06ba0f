(** Property C25: stalls of sparta::Pipeline. *)
From Coq Require Import List NArith Arith Bool Lia.
From Verif Require Import MathUtilsModel QueueProofs PipeModel PipeProofs PipeProps PipelineModel PipelineProofs.
Import ListNotations.
Open Scope N_scope.

Section SPEC.
Context {A : Type}.
Implicit Types (p : pipe A) (L : list (option A)) (l : pline A).

(* What the calls should do. The cells are the append slot, then stage 0, 1, ...; a stall is the stalled stage, the number of
   updates it still lasts and the first stage held; [s_act]: the stages with active handlers; [s_calls]: the stages whose handlers
   are pending. *)
Record sst := mkS { s_cells : list (option A); s_stall : option (nat * N * nat); s_act : N -> bool; s_own : bool; s_sched : bool; s_calls : list N }.
Definition cell L (s : N) : option A := nth (S (N.to_nat s)) L None.
Definition size L : N := N.of_nat (length L) - 1.
(* The first of the stages that are occupied without a gap up to stage c-1. *)
Fixpoint bottom L (c : nat) : nat := match c with O => O | S c' => if ok (nth (S c') L None) then bottom L c' else c end.
Definition held (lo k : nat) (j : N) : bool := (N.of_nat lo <=? j) && (j <=? N.of_nat k).
Definition movable (lo k : nat) (j : N) : bool := negb (held lo k j).
Definition wake (ev : N -> bool) (k : nat) (f : N -> bool) (j : N) : bool := f j || ((j <=? N.of_nat k) && ev j).
Definition s_touch (s : sst) (L : list (option A)) : sst := mkS L (s_stall s) (s_act s) (s_own s) (s_sched s || s_own s) (s_calls s).
Definition stages L : list N := map N.of_nat (seq 0 (N.to_nat (size L))).
Definition pend (act : N -> bool) L (calls : list N) : list N :=
  calls ++ filter (fun j => ok (cell L j) && act j && negb (existsb (N.eqb j) calls)) (stages L).
Definition s_upd (ev : N -> bool) (s : sst) : sst :=
  let L := match s_stall s with None => advance (s_cells s) | Some (k, c, lo) => stall_cells (movable lo k) k (s_cells s) end in
  let sched := s_sched s || (existsb ok L && s_own s) in
  let calls := pend (s_act s) L (s_calls s) in
  match s_stall s with
  | Some (k, c, lo) => if c =? 1 then mkS L None (wake ev k (s_act s)) (s_own s) sched calls
                       else mkS L (Some (k, c - 1, lo)) (s_act s) (s_own s) sched calls
  | None => mkS L None (s_act s) (s_own s) sched calls
  end.
Definition s_flush (ev : N -> bool) (s : sst) (j : N) : sst :=
  let calls := if ok (cell (s_cells s) j) && s_act s j then filter (fun i => negb (i =? j)) (s_calls s) else s_calls s in
  let L := set (S (N.to_nat j)) None (s_cells s) in
  match s_stall s with
  | Some (k, c, lo) => if j =? N.of_nat k then mkS L None (wake ev k (s_act s)) (s_own s) (s_sched s) calls
                       else mkS L (s_stall s) (s_act s) (s_own s) (s_sched s) calls
  | None => mkS L None (s_act s) (s_own s) (s_sched s) calls
  end.
Definition sspec (ev : N -> bool) (s : sst) (o : lop A) : option sst :=
  let L := s_cells s in
  match o with
  | PAppend a => match L with None :: r => Some (s_touch s (Some a :: r)) | _ => None end
  | PWrite j a => if j <? size L then Some (s_touch s (set (S (N.to_nat j)) (Some a) L)) else None
  | PInvalidate j => if (j <? size L) && ok (cell L j) then Some (s_touch s (set (S (N.to_nat j)) None L)) else None
  | PStall k c crush supp =>
      if (k <? size L) && ok (cell L k) then
        match s_stall s with
        | Some _ => None
        | None => if c =? 0 then Some s
                  else let lo := if crush then bottom L (S (N.to_nat k)) else O in
                       Some (mkS L (Some (N.to_nat k, c, lo)) (fun j => s_act s j && negb (supp && held lo (N.to_nat k) j)) (s_own s) (s_sched s) (s_calls s))
        end
      else None
  | PClear => match s_stall s with Some (k, _, _) => Some (mkS L None (wake ev k (s_act s)) (s_own s) (s_sched s) (s_calls s)) | None => None end
  | PFlush j => if j <? size L then Some (s_flush ev s j) else None
  | PFlushAll => Some (fold_left (s_flush ev) (stages L) s)
  | PFlushAppend => Some (mkS (None :: tl L) (s_stall s) (s_act s) (s_own s) (s_sched s) (s_calls s))
  | PActivate j => if (j <? size L) && ev j then Some (mkS L (s_stall s) (updb (s_act s) j true) (s_own s) (s_sched s) (s_calls s)) else None
  | PDeactivate j => if (j <? size L) && ev j then Some (mkS L (s_stall s) (updb (s_act s) j false) (s_own s) (s_sched s) (s_calls s)) else None
  | POwn => Some (mkS L (s_stall s) (s_act s) true (s_sched s || (negb (s_own s) && existsb ok L)) (s_calls s))
  | PUpdate => if s_own s then None else Some (s_upd ev s)
  | PFire => if s_sched s then Some (s_upd ev (mkS L (s_stall s) (s_act s) (s_own s) false (s_calls s))) else Some s
  | PCalls => Some (mkS L (s_stall s) (s_act s) (s_own s) (s_sched s) [])
  end.
Fixpoint srun (ev : N -> bool) (s : sst) (ops : list (lop A)) : option sst :=
  match ops with [] => Some s | o :: r => match sspec ev s o with Some s' => srun ev s' r | None => None end end.
Definition s_init (n : N) (ev : N -> bool) : sst := mkS (repeat None (S (N.to_nat n))) None ev false false [].
(* Arguments of stall are uint32_t. *)
Definition fits (o : lop A) : Prop := match o with PStall _ c _ _ => c < 2 ^ 32 | _ => True end.

Record R (ev : N -> bool) l (s : sst) : Prop := {
  R_G : G (l_pipe l);
  R_v : view (l_pipe l) = s_cells s;
  R_ev : forall j, l_ev l j = ev j;
  R_act : forall j, l_evv l j = s_act s j;
  R_le : forall j, s_act s j = true -> ev j = true;
  R_own : l_own l = s_own s;
  R_sched : l_sched l = s_sched s;
  R_calls : l_calls l = s_calls s;
  R_stall : match s_stall s with
            | None => l_stall l = 0 /\ l_stage l = no_stage /\ forall j, l_adv l j = true
            | Some (k, c, lo) => l_stall l = c /\ l_stage l = N.of_nat k /\ 0 < c < 2 ^ 32 /\ N.of_nat k < p_n (l_pipe l) /\ (lo <= k)%nat /\
                                 forall j, l_adv l j = movable lo k j
            end
}.

Lemma size_n : forall p, size (view p) = p_n p.
Proof. intros. apply len_n. Qed.
Lemma rest_ok : forall n ev count s (f : (N -> bool) * (N -> bool)), s + N.of_nat count <= n -> exists f', rest n ev s count f = Some f' /\
  (forall j, fst f' j = fst f j || ((s <=? j) && (j <? s + N.of_nat count) && ev j)) /\ (forall j, snd f' j = snd f j || ((s <=? j) && (j <? s + N.of_nat count))).
Proof.
  induction count as [|c IH]; intros s f H.
  - exists f. split; auto. split; intros j; destruct (N.leb_spec s j), (N.ltb_spec j (s + N.of_nat 0)); try lia; cbn [andb]; rewrite ?orb_false_r; auto.
  - cbn [rest]. destruct (N.ltb_spec s n); [|lia]. match goal with |- context [rest _ _ _ c ?f] => set (f1 := f) end.
    destruct (IH (s + 1) f1 ltac:(lia)) as (f' & E & E1 & E2). exists f'. split; auto. split; intros j; [rewrite E1|rewrite E2]; unfold f1; cbn [fst snd].
    + assert (K : (if ev s then updb (fst f) s true else fst f) j = fst f j || ((j =? s) && ev j)).
      { unfold updb. destruct (N.eqb_spec j s) as [->|NE]; cbn [andb]; [destruct (ev s); [rewrite N.eqb_refl, orb_true_r; auto|rewrite orb_false_r; auto]|].
        rewrite orb_false_r. destruct (ev s); auto. destruct (N.eqb_spec j s); [lia|auto]. }
      rewrite K. destruct (fst f j); auto. cbn [orb]. destruct (N.eqb_spec j s), (N.leb_spec (s + 1) j), (N.leb_spec s j), (N.ltb_spec j (s + 1 + N.of_nat c)), (N.ltb_spec j (s + N.of_nat (S c))); try lia; destruct (ev j); auto.
    + unfold updb. destruct (snd f j), (N.eqb_spec j s), (N.leb_spec (s + 1) j), (N.leb_spec s j), (N.ltb_spec j (s + 1 + N.of_nat c)), (N.ltb_spec j (s + N.of_nat (S c))); try lia; auto.
Qed.
Lemma bottom_le : forall L (c : nat), (bottom L c <= c)%nat.
Proof. induction c; simpl; auto. destruct (ok (nth (S c) L None)); lia. Qed.
Lemma deact_ok : forall p ev (crush supp : bool) (count : nat) (f : (N -> bool) * (N -> bool)), G p -> N.of_nat count <= p_n p ->
  let b := if crush then bottom (view p) count else O in
  exists f', deact p ev count crush supp f = Some f' /\
  (forall j, fst f' j = fst f j && negb (supp && ev j && ((N.of_nat b <=? j) && (j <? N.of_nat count)))) /\
  (forall j, snd f' j = snd f j && negb ((N.of_nat b <=? j) && (j <? N.of_nat count))).
Proof.
  intros p ev crush supp. induction count as [|c IH]; intros f Gp H b.
  - exists f. split; auto. split; intros j; destruct (N.ltb_spec j (N.of_nat 0)); try lia; rewrite ?andb_false_r; cbn [negb]; rewrite ?andb_true_r; auto.
  - cbn [deact]. rewrite valid_nth by apply Gp. destruct (N.ltb_spec (N.of_nat c) (p_n p)); [|lia]. rewrite Nat2N.id.
    destruct (crush && negb (ok (nth (S c) (view p) None))) eqn:EC.
    + apply andb_prop in EC as [-> EC]. apply negb_true_iff in EC. unfold b. cbn [bottom]. rewrite EC. exists f. split; auto.
      split; intros j; destruct (N.leb_spec (N.of_nat (S c)) j), (N.ltb_spec j (N.of_nat (S c))); try lia; rewrite ?andb_false_r; cbn [andb negb]; rewrite ?andb_false_r, ?andb_true_r; auto.
    + match goal with |- context [deact _ _ c _ _ ?f] => set (f1 := f) end.
      destruct (IH f1 Gp ltac:(lia)) as (f' & E & E1 & E2). cbv zeta in E1, E2.
      assert (EB : b = if crush then bottom (view p) c else O). { unfold b. destruct crush; auto. cbn [bottom]. cbn [andb] in EC. apply negb_false_iff in EC. rewrite EC. auto. }
      rewrite <- EB in E1, E2. assert (HB : (b <= c)%nat) by (rewrite EB; destruct crush; [apply bottom_le|lia]).
      exists f'. split; auto. split; intros j; [rewrite E1|rewrite E2]; unfold f1; cbn [fst snd].
      * assert (K : (if supp && ev (N.of_nat c) then updb (fst f) (N.of_nat c) false else fst f) j = fst f j && negb (supp && ev j && (j =? N.of_nat c))).
        { unfold updb. destruct (N.eqb_spec j (N.of_nat c)) as [->|NE]; [rewrite andb_true_r; destruct (supp && ev (N.of_nat c)); [rewrite N.eqb_refl, andb_false_r; auto|rewrite andb_true_r; auto]|].
          rewrite andb_false_r, andb_true_r. destruct (supp && ev (N.of_nat c)); auto. destruct (N.eqb_spec j (N.of_nat c)); [lia|auto]. }
        rewrite K. destruct (fst f j); auto. cbn [andb]. destruct (supp && ev j); auto. cbn [andb negb].
        destruct (N.eqb_spec j (N.of_nat c)), (N.leb_spec (N.of_nat b) j), (N.ltb_spec j (N.of_nat c)), (N.ltb_spec j (N.of_nat (S c))); try lia; auto.
      * unfold updb. destruct (snd f j), (N.eqb_spec j (N.of_nat c)), (N.leb_spec (N.of_nat b) j), (N.ltb_spec j (N.of_nat c)), (N.ltb_spec j (N.of_nat (S c))); try lia; auto.
Qed.
Lemma stalled_st : forall ev l s, R ev l s -> stalled l = match s_stall s with Some _ => true | None => false end.
Proof.
  intros ev l s [Gp V _ _ _ _ _ _ RS]. unfold stalled. destruct (s_stall s) as [[[k c] lo]|].
  - destruct RS as (-> & _ & H & _). destruct (N.ltb_spec 0 c); [auto|lia].
  - destruct RS as (-> & -> & _). auto.
Qed.
Lemma restart_ok : forall l k, N.of_nat k < p_n (l_pipe l) -> exists e a, restart l (N.of_nat k) = Some (set_flags l e a) /\
  (forall j, e j = l_evv l j || ((j <=? N.of_nat k) && l_ev l j)) /\ (forall j, a j = l_adv l j || (j <=? N.of_nat k)).
Proof.
  intros l k H. unfold restart. destruct (N.ltb_spec (N.of_nat k) (p_n (l_pipe l))); [|lia]. rewrite Nat2N.id.
  destruct (rest_ok (p_n (l_pipe l)) (l_ev l) (S k) 0 (l_evv l, l_adv l) ltac:(lia)) as (f' & E & E1 & E2). rewrite E. exists (fst f'), (snd f'). split; auto. cbn [fst snd] in *.
  split; intros j; [rewrite E1|rewrite E2]; f_equal; destruct (N.leb_spec 0 j), (N.ltb_spec j (0 + N.of_nat (S k))), (N.leb_spec j (N.of_nat k)); try lia; auto.
Qed.
Lemma any_ok : forall p, NVI p -> any_valid p = existsb ok (view p).
Proof.
  intros p H. unfold any_valid. destruct (view_hd p) as (r & E & _). unfold NVI in H. rewrite E in *. cbn [tl existsb] in *. rewrite H. rewrite orb_comm. f_equal.
  clear. induction r as [|x r IH]; auto. unfold cnt in *. cbn [filter existsb]. rewrite <- IH. destruct (ok x); auto.
Qed.
Lemma sched_each_ok : forall count l s, G (l_pipe l) -> (forall j, l_evv l j = true -> l_ev l j = true) -> N.of_nat (s + count) <= p_n (l_pipe l) ->
  sched_each l (N.of_nat s) count = Some (set_calls l (l_calls l ++ filter (fun j => ok (cell (view (l_pipe l)) j) && l_evv l j && negb (existsb (N.eqb j) (l_calls l))) (map N.of_nat (seq s count)))).
Proof.
  induction count as [|c IH]; intros l s Gp HE H.
  - cbn. rewrite app_nil_r. destruct l; auto.
  - cbn [sched_each]. rewrite valid_nth by apply Gp. destruct (N.ltb_spec (N.of_nat s) (p_n (l_pipe l))); [|lia].
    cbn [seq map filter]. unfold cell at 1. set (v := ok (nth (S (N.to_nat (N.of_nat s))) (view (l_pipe l)) None)).
    replace (N.of_nat s + 1) with (N.of_nat (S s)) by lia.
    destruct (v && l_evv l (N.of_nat s)) eqn:EV; cbn [andb].
    + apply andb_prop in EV as [_ EV]. rewrite (HE _ EV). destruct (existsb (N.eqb (N.of_nat s)) (l_calls l)) eqn:EX; cbn [negb].
      * apply IH; auto. lia.
      * rewrite IH; auto; [|cbn; lia]. f_equal. unfold set_calls. cbn [l_calls l_pipe l_evv]. f_equal. rewrite <- app_assoc. cbn [app]. f_equal. f_equal.
        apply filter_ext_in. intros j Hj. f_equal. f_equal. rewrite existsb_app. cbn [existsb]. apply in_map_iff in Hj as (i & <- & Hi). apply in_seq in Hi.
        destruct (N.eqb_spec (N.of_nat i) (N.of_nat s)); [lia|]. rewrite orb_false_r. auto.
    + apply IH; auto. lia.
Qed.
Lemma settle_ext : forall f g L i, (forall j, f j = g j) -> settle f i L = settle g i L.
Proof. induction L as [|x r IH]; intros i H; auto. rewrite !settle_cons, IH by auto. rewrite H. auto. Qed.
Lemma stall_cells_ext : forall f g k L, (forall j, f j = g j) -> stall_cells f k L = stall_cells g k L.
Proof. intros. unfold stall_cells. f_equal. apply settle_ext. intros [|j]; cbn; auto. Qed.

Lemma R_upd : forall ev l s, R ev l s -> exists l', internal l = Some l' /\ R ev l' (s_upd ev s).
Proof.
  intros ev l s HR. pose proof (stalled_st ev l s HR) as ES. destruct HR as [Gp V Hev Hact Hle Hown Hsch Hcalls HS].
  assert (HE : forall q, l_evv (set_pipe l q) = l_evv l /\ l_ev (set_pipe l q) = l_ev l) by (intros; split; reflexivity).
  assert (HC : forall q, G q -> p_n q = p_n (l_pipe l) -> sched_each (set_pipe l q) 0 (N.to_nat (p_n (l_pipe l))) = Some (set_calls (set_pipe l q) (pend (s_act s) (view q) (s_calls s)))).
  { intros q Gq En. change 0 with (N.of_nat 0). rewrite sched_each_ok; [|auto| |cbn [set_pipe l_pipe]; lia].
    - cbn [set_pipe l_pipe l_calls l_evv]. rewrite Hcalls. unfold pend, stages. rewrite size_n, En. do 3 f_equal. apply filter_ext. intros j. rewrite Hact. auto.
    - intros j. cbn [set_pipe l_evv l_ev]. rewrite Hact, Hev. auto. }
  unfold internal, s_upd. rewrite ES. destruct (s_stall s) as [[[k c] lo]|].
  - destruct HS as (HS1 & HS2 & HS3 & HS4 & HS5 & HS6). rewrite HS2.
    destruct (drain_ok l k Gp HS4) as (q & Eq & Gq & En & Vq).
    { rewrite HS6. unfold movable, held. destruct (N.leb_spec (N.of_nat lo) (N.of_nat k)), (N.leb_spec (N.of_nat k) (N.of_nat k)); try lia. }
    rewrite Eq, HC by auto. assert (VQ : view q = stall_cells (movable lo k) k (s_cells s)) by (rewrite Vq, V; apply stall_cells_ext; auto).
    rewrite <- VQ. cbn [set_calls set_pipe l_stall l_stage set_stall]. rewrite HS1, dec_s by lia. destruct (N.eqb_spec (c - 1) 0) as [E1|E1].
    + assert (c = 1) by lia. rewrite H in *. rewrite N.eqb_refl. match goal with |- context [restart ?x] => set (l1 := x) end.
      assert (En1 : p_n (l_pipe l1) = p_n (l_pipe l)) by exact En.
      rewrite HS2. destruct (restart_ok l1 k ltac:(lia)) as (e & a & ER & R1 & R2). rewrite ER. cbn [option_map]. eexists. split; [reflexivity|].
      constructor; cbn; auto; try (rewrite ?any_ok by apply Gq; rewrite ?Hsch, ?Hown; auto; fail).
      * intros j. rewrite R1. unfold wake. cbn. rewrite Hact, Hev. auto.
      * intros j. unfold wake. intros HJ. apply orb_prop in HJ as [HJ|HJ]; auto. apply andb_prop in HJ as [_ HJ]; auto.
      * split; auto. split; auto. intros j. rewrite R2. cbn. rewrite HS6. unfold movable, held. destruct (N.leb_spec (N.of_nat lo) j), (N.leb_spec j (N.of_nat k)); try lia; auto.
    + destruct (N.eqb_spec c 1); [lia|]. eexists. split; [reflexivity|].
      constructor; cbn; auto; try (rewrite ?any_ok by apply Gq; rewrite ?Hsch, ?Hown; auto; fail).
      split; auto. split; auto. split; [lia|]. split; [lia|]. split; auto.
  - destruct (gdo (l_pipe l) OUpdate (advance (view (l_pipe l))) Gp Logic.I) as (q & Eq & Gq & En & Vq).
    { unfold spec. rewrite (G_own _ Gp). auto. }
    cbn [step] in Eq. rewrite Eq, HC by auto. cbn [option_map]. eexists. split; [reflexivity|]. rewrite V in Vq. rewrite <- Vq.
    constructor; cbn; auto; try (rewrite ?any_ok by apply Gq; rewrite ?Hsch, ?Hown; auto; fail).
Qed.

Lemma R_size : forall ev l s, R ev l s -> size (s_cells s) = p_n (l_pipe l).
Proof. intros ev l s HR. rewrite <- (R_v _ _ _ HR). apply size_n. Qed.
Lemma R_valid : forall ev l s j, R ev l s -> is_valid (l_pipe l) j = if j <? size (s_cells s) then Some (ok (cell (s_cells s) j)) else None.
Proof. intros ev l s j HR. rewrite (R_size _ _ _ HR). rewrite valid_nth by apply HR. unfold cell. rewrite (R_v _ _ _ HR). auto. Qed.
Lemma R_flush : forall ev l s j, R ev l s -> j < size (s_cells s) -> exists l', flush_stage l j = Some l' /\ R ev l' (s_flush ev s j).
Proof.
  intros ev l s j HR Hj. pose proof (stalled_st ev l s HR) as ES. pose proof (R_valid ev l s j HR) as EV. pose proof (R_size ev l s HR) as En.
  destruct (N.ltb_spec j (size (s_cells s))); [|lia]. unfold flush_stage, cancel_at. rewrite EV. rewrite (R_act _ _ _ HR j).
  set (calls := if ok (cell (s_cells s) j) && s_act s j then filter (fun i => negb (i =? j)) (s_calls s) else s_calls s).
  assert (E1 : (if ok (cell (s_cells s) j) && s_act s j then if l_ev l j then Some (set_calls l (filter (fun j0 => negb (j0 =? j)) (l_calls l))) else None else Some l) = Some (set_calls l calls)).
  { unfold calls. destruct (ok (cell (s_cells s) j) && s_act s j) eqn:E.
    - apply andb_prop in E as [_ E]. rewrite (R_ev _ _ _ HR). rewrite (R_le _ _ _ HR j E). rewrite (R_calls _ _ _ HR). auto.
    - rewrite <- (R_calls _ _ _ HR). destruct l; auto. }
  rewrite E1. destruct HR as [Gp V Hev Hact Hle Hown Hsch Hcalls HS].
  destruct (gdo (l_pipe l) (OFlush j) (set (S (N.to_nat j)) None (s_cells s)) Gp Logic.I) as (q & Eq & Gq & Enq & Vq).
  { unfold spec. rewrite len_n, V. destruct (N.ltb_spec j (p_n (l_pipe l))); [auto|lia]. }
  cbn [step] in Eq. change (stalled (set_calls l calls)) with (stalled l). change (l_stage (set_calls l calls)) with (l_stage l). rewrite ES.
  unfold s_flush. fold calls. destruct (s_stall s) as [[[k c] lo]|] eqn:EST.
  - destruct HS as (HS1 & HS2 & HS3 & HS4 & HS5 & HS6). rewrite HS2. destruct (N.eqb_spec j (N.of_nat k)) as [->|NE].
    + destruct (restart_ok (set_calls l calls) k HS4) as (e & a & ER & R1 & R2). rewrite ER. cbn [option_map set_stall set_flags set_calls l_pipe]. rewrite Eq. cbn [option_map].
      eexists. split; [reflexivity|]. constructor; cbn; auto.
      * intros j. rewrite R1. unfold wake. cbn. rewrite Hact, Hev. auto.
      * intros j. unfold wake. intros HJ. apply orb_prop in HJ as [HJ|HJ]; auto. apply andb_prop in HJ as [_ HJ]; auto.
      * split; auto. split; auto. intros j. rewrite R2. cbn. rewrite HS6. unfold movable, held. destruct (N.leb_spec (N.of_nat lo) j), (N.leb_spec j (N.of_nat k)); try lia; auto.
    + cbn [set_calls l_pipe]. rewrite Eq. cbn [option_map]. eexists. split; [reflexivity|]. constructor; cbn; auto. split; auto. split; auto. split; [lia|]. split; [lia|]. split; auto.
  - destruct HS as (HS1 & HS2 & HS3). rewrite HS2. pose proof (n_small _ (G_I _ Gp)). destruct (N.eqb_spec j no_stage) as [->|NE]; [unfold no_stage in *; lia|].
    cbn [set_calls l_pipe]. rewrite Eq. cbn [option_map]. eexists. split; [reflexivity|]. constructor; cbn; auto.
Qed.
Lemma s_flush_size : forall ev s j, length (s_cells (s_flush ev s j)) = length (s_cells s).
Proof. intros. unfold s_flush. destruct (s_stall s) as [[[k c] lo]|]; [destruct (j =? N.of_nat k)|]; cbn; rewrite ?set_len; auto; destruct (s_cells s); cbn; rewrite ?set_len; auto. Qed.
Lemma R_flushes : forall ev count l s i, R ev l s -> N.of_nat (i + count) <= size (s_cells s) ->
  exists l', flush_stages l (N.of_nat i) count = Some l' /\ R ev l' (fold_left (s_flush ev) (map N.of_nat (seq i count)) s).
Proof.
  induction count as [|c IH]; intros l s i HR H; [exists l; auto|]. cbn [flush_stages seq map fold_left].
  destruct (R_flush ev l s (N.of_nat i) HR ltac:(lia)) as (l1 & E1 & R1). rewrite E1. replace (N.of_nat i + 1) with (N.of_nat (S i)) by lia.
  apply IH; auto. unfold size in *. rewrite s_flush_size. lia.
Qed.

Lemma R_touch : forall ev l s q L, R ev l s -> G q -> p_n q = p_n (l_pipe l) -> view q = L -> R ev (touch l q) (s_touch s L).
Proof.
  intros ev l s q L [Gp V Hev Hact Hle Hown Hsch Hcalls HS] Gq En Vq. constructor; cbn; auto; [congruence|].
  destruct (s_stall s) as [[[k c] lo]|]; auto. rewrite En. auto.
Qed.
Lemma R_step : forall ev l s o, R ev l s -> fits o ->
  match lstep l o, sspec ev s o with Some l', Some s' => R ev l' s' | None, None => True | _, _ => False end.
Proof.
  intros ev l s o HR HF. pose proof (stalled_st ev l s HR) as ES. pose proof (R_size ev l s HR) as En. pose proof (R_v _ _ _ HR) as V. pose proof (R_G _ _ _ HR) as Gp.
  assert (HP : forall o' L', match o' with OFlushIf _ | OOwn => False | _ => True end -> spec (p_own (l_pipe l)) (p_sched (l_pipe l)) (s_cells s) o' = Some L' ->
    exists q, step (l_pipe l) o' = Some q /\ G q /\ p_n q = p_n (l_pipe l) /\ view q = L') by (intros; apply gdo; auto; congruence).
  assert (HN : forall o', spec (p_own (l_pipe l)) (p_sched (l_pipe l)) (s_cells s) o' = None -> step (l_pipe l) o' = None).
  { intros o' H. pose proof (step_spec (l_pipe l) o' (G_I _ Gp)) as K. rewrite V, H in K. destruct (step (l_pipe l) o'); auto. contradiction. }
  destruct o as [a|j a|j|k c crush supp| |j| | |j|j| | | |]; cbn [lstep sspec].
  - destruct (s_cells s) as [|[b|] r] eqn:EL.
    + pose proof (view_len (l_pipe l)) as K. rewrite V in K. discriminate.
    + change (append (l_pipe l) a) with (step (l_pipe l) (OAppend a)). rewrite HN by auto. exact Logic.I.
    + destruct (HP (OAppend a) (Some a :: r) Logic.I eq_refl) as (q & Eq & Gq & Enq & Vq). cbn [step] in Eq. rewrite Eq. cbn [option_map]. apply R_touch; auto.
  - destruct (N.ltb_spec j (size (s_cells s))) as [Hj|Hj].
    + destruct (HP (OWrite j a) (set (S (N.to_nat j)) (Some a) (s_cells s)) Logic.I) as (q & Eq & Gq & Enq & Vq).
      { unfold spec. fold (size (s_cells s)). destruct (N.ltb_spec j (size (s_cells s))); [auto|lia]. }
      cbn [step] in Eq. rewrite Eq. cbn [option_map]. apply R_touch; auto.
    + change (write (l_pipe l) j a) with (step (l_pipe l) (OWrite j a)). rewrite HN; [exact Logic.I|]. unfold spec. fold (size (s_cells s)). destruct (N.ltb_spec j (size (s_cells s))); [lia|auto].
  - change (invalidate (l_pipe l) j) with (step (l_pipe l) (OInvalidate j)).
    assert (KE : j < size (s_cells s) -> nth_error (s_cells s) (S (N.to_nat j)) = Some (cell (s_cells s) j)).
    { intros Hj. apply nth_error_nth'. unfold size in Hj. lia. }
    destruct (N.ltb_spec j (size (s_cells s))) as [Hj|Hj]; cbn [andb].
    + specialize (KE Hj). destruct (cell (s_cells s) j) as [a|] eqn:EC; cbn [ok].
      * destruct (HP (OInvalidate j) (set (S (N.to_nat j)) None (s_cells s)) Logic.I) as (q & Eq & Gq & Enq & Vq).
        { unfold spec. fold (size (s_cells s)). destruct (N.ltb_spec j (size (s_cells s))); [|lia]. rewrite KE. auto. }
        rewrite Eq. cbn [option_map]. apply R_touch; auto.
      * rewrite HN; [exact Logic.I|]. unfold spec. fold (size (s_cells s)). destruct (N.ltb_spec j (size (s_cells s))); [|lia]. rewrite KE. auto.
    + rewrite HN; [exact Logic.I|]. unfold spec. fold (size (s_cells s)). destruct (N.ltb_spec j (size (s_cells s))); [lia|auto].
  - unfold stall. rewrite (R_valid _ _ _ k HR). destruct (N.ltb_spec k (size (s_cells s))) as [Hk|Hk]; cbn [andb]; [|exact Logic.I].
    destruct (ok (cell (s_cells s) k)) eqn:EO; [|exact Logic.I]. rewrite ES. destruct (s_stall s) as [x|] eqn:EST; [exact Logic.I|].
    destruct (N.eqb_spec c 0) as [Hc|Hc]; [exact HR|].
    destruct (deact_ok (l_pipe l) (l_ev l) crush supp (S (N.to_nat k)) (l_evv l, l_adv l) Gp ltac:(lia)) as (f & Ef & E1 & E2). rewrite V in *. cbn [fst snd] in E1, E2. rewrite Ef. cbn [option_map].
    set (lo := if crush then bottom (s_cells s) (S (N.to_nat k)) else 0%nat) in *.
    assert (HLO : (lo <= N.to_nat k)%nat). { unfold lo. destruct crush; [|lia]. cbn [bottom]. unfold cell in EO. rewrite EO. apply bottom_le. }
    destruct HR as [_ _ Hev Hact Hle Hown Hsch Hcalls HS]. rewrite EST in HS. destruct HS as (HS1 & HS2 & HS3).
    constructor; cbn; auto.
    + intros j. rewrite E1, Hact, Hev. unfold held. rewrite N2Nat.id. destruct (s_act s j) eqn:EA; auto. rewrite (Hle _ EA). rewrite andb_true_r.
      destruct (N.ltb_spec j (N.of_nat (S (N.to_nat k)))), (N.leb_spec j k); try lia; auto.
    + intros j HJ. apply andb_prop in HJ as [HJ _]. auto.
    + cbn [fits] in HF. rewrite N2Nat.id. split; auto. split; auto. split; [lia|]. split; [lia|]. split; auto.
      intros j. rewrite E2, HS3. unfold movable, held. rewrite N2Nat.id. destruct (N.ltb_spec j (N.of_nat (S (N.to_nat k)))), (N.leb_spec j k); try lia; auto.
  - unfold clear_stall. rewrite ES. destruct HR as [_ _ Hev Hact Hle Hown Hsch Hcalls HS]. destruct (s_stall s) as [[[k c] lo]|]; [|exact Logic.I].
    destruct HS as (HS1 & HS2 & HS3 & HS4 & HS5 & HS6). rewrite HS2. destruct (restart_ok (set_stall l 0 (N.of_nat k)) k HS4) as (e & a & ER & R1 & R2). rewrite ER. cbn [option_map].
    constructor; cbn; auto.
    + intros j. rewrite R1. unfold wake. cbn. rewrite Hact, Hev. auto.
    + intros j. unfold wake. intros HJ. apply orb_prop in HJ as [HJ|HJ]; auto. apply andb_prop in HJ as [_ HJ]; auto.
    + split; auto. split; auto. intros j. rewrite R2. cbn. rewrite HS6. unfold movable, held. destruct (N.leb_spec (N.of_nat lo) j), (N.leb_spec j (N.of_nat k)); try lia; auto.
  - destruct (N.ltb_spec j (size (s_cells s))) as [Hj|Hj].
    + destruct (R_flush ev l s j HR Hj) as (l' & -> & HR'). auto.
    + unfold flush_stage, cancel_at. rewrite (R_valid _ _ _ j HR). destruct (N.ltb_spec j (size (s_cells s))); [lia|exact Logic.I].
  - destruct (R_flushes ev (N.to_nat (p_n (l_pipe l))) l s 0 HR ltac:(lia)) as (l' & E & HR'). change (N.of_nat 0) with 0 in E. rewrite E. unfold stages. rewrite En. auto.
  - destruct (HP OFlushAppend (None :: tl (s_cells s)) Logic.I eq_refl) as (q & Eq & Gq & Enq & Vq). cbn [step] in Eq. injection Eq as Eq. rewrite Eq.
    destruct HR as [_ _ Hev Hact Hle Hown Hsch Hcalls HS]. constructor; cbn; auto. destruct (s_stall s) as [[[k c] lo]|]; auto. rewrite Enq. auto.
  - rewrite <- En, (R_ev _ _ _ HR). destruct ((j <? size (s_cells s)) && ev j) eqn:E; [|exact Logic.I]. apply andb_prop in E as [_ E].
    destruct HR as [_ _ Hev Hact Hle Hown Hsch Hcalls HS]. constructor; cbn; auto.
    + intros i. unfold updb. rewrite Hact. auto.
    + intros i. unfold updb. destruct (N.eqb_spec i j) as [->|]; auto.
  - rewrite <- En, (R_ev _ _ _ HR). destruct ((j <? size (s_cells s)) && ev j) eqn:E; [|exact Logic.I]. apply andb_prop in E as [_ E].
    destruct HR as [_ _ Hev Hact Hle Hown Hsch Hcalls HS]. constructor; cbn; auto.
    + intros i. unfold updb. rewrite Hact. auto.
    + intros i. unfold updb. destruct (N.eqb_spec i j) as [->|]; auto.
  - rewrite (R_own _ _ _ HR). destruct HR as [_ _ Hev Hact Hle Hown Hsch Hcalls HS]. destruct (s_own s) eqn:EO; constructor; cbn; auto.
    + rewrite orb_false_r. auto.
    + rewrite any_ok by apply Gp. rewrite V, Hsch. auto.
  - rewrite (R_own _ _ _ HR). destruct (s_own s); [exact Logic.I|]. destruct (R_upd ev l s HR) as (l' & -> & HR'). auto.
  - rewrite (R_sched _ _ _ HR). destruct (s_sched s) eqn:ESC; [|exact HR].
    destruct (R_upd ev (set_sched l false) (mkS (s_cells s) (s_stall s) (s_act s) (s_own s) false (s_calls s))) as (l' & -> & HR'); auto.
    destruct HR as [_ _ Hev Hact Hle Hown Hsch Hcalls HS]. constructor; cbn; auto.
  - destruct HR as [_ _ Hev Hact Hle Hown Hsch Hcalls HS]. constructor; cbn; auto.
Qed.

Lemma R_init : forall n ev l0, n < 2 ^ 31 -> l_init n ev = Some l0 -> R ev l0 (s_init n ev) /\ p_n (l_pipe l0) = n.
Proof.
  intros n ev l0 Hn H. unfold l_init in H. destruct (p_init n) as [p0|] eqn:E; [|discriminate]. injection H as <-.
  destruct (init_inv n p0 Hn E) as (I0 & N0 & _). destruct (init_ok n p0 Hn E) as (_ & V0 & En & _ & Eo & _). split; auto.
  constructor; cbn; auto. constructor; auto.
Qed.
Lemma R_run : forall ev ops l s, R ev l s -> Forall fits ops ->
  match lrun l ops, srun ev s ops with Some l', Some s' => R ev l' s' /\ p_n (l_pipe l') = p_n (l_pipe l) | None, None => True | _, _ => False end.
Proof.
  induction ops as [|o r IH]; intros l s HR HF; [cbn; auto|]. inversion HF; subst. cbn [lrun srun].
  pose proof (R_step ev l s o HR H1) as K. assert (KN : forall l', lstep l o = Some l' -> forall s', R ev l' s' -> sspec ev s o = Some s' -> p_n (l_pipe l') = p_n (l_pipe l)).
  { intros l' _ s' HR' ES. rewrite <- (R_size _ _ _ HR), <- (R_size _ _ _ HR'). unfold size. f_equal. f_equal. clear - ES HR.
    assert (KU : forall t, length (s_cells (s_upd ev t)) = length (s_cells t) \/ s_cells t = []).
    { intros t. destruct (s_cells t) as [|x r] eqn:E; auto. left. unfold s_upd. rewrite E. destruct (s_stall t) as [[[k c] lo]|]; [destruct (c =? 1); cbn [s_cells]; apply stall_cells_len|].
      cbn [s_cells]. unfold advance. change (length (None :: removelast (x :: r))) with (S (length (removelast (x :: r)))). rewrite removelast_len. cbn [length]. lia. }
    assert (KS : s_cells s <> []). { rewrite <- (R_v _ _ _ HR). discriminate. }
    destruct o as [a|j a|j|k c crush supp| |j| | |j|j| | | |]; cbn [sspec] in ES.
    - destruct (s_cells s) as [|[b|] q] eqn:E; try discriminate. apply Some_inj in ES. rewrite <- ES. cbn. auto.
    - destruct (_ <? _); [|discriminate]. apply Some_inj in ES. rewrite <- ES. cbn [s_touch s_cells]. rewrite set_len. auto.
    - destruct (_ && _); [|discriminate]. apply Some_inj in ES. rewrite <- ES. cbn [s_touch s_cells]. rewrite set_len. auto.
    - destruct (_ && _); [|discriminate]. destruct (s_stall s); [discriminate|]. destruct (c =? 0); apply Some_inj in ES; rewrite <- ES; auto.
    - destruct (s_stall s) as [[[k c] lo]|]; [|discriminate]. apply Some_inj in ES. rewrite <- ES. auto.
    - destruct (_ <? _); [|discriminate]. apply Some_inj in ES. rewrite <- ES. apply s_flush_size.
    - apply Some_inj in ES. rewrite <- ES. generalize (stages (s_cells s)). intros js. clear. revert s. induction js as [|j js IH]; intros s; auto. cbn [fold_left]. rewrite IH. apply s_flush_size.
    - apply Some_inj in ES. rewrite <- ES. cbn [s_cells]. destruct (s_cells s); [contradiction|auto].
    - destruct (_ && _); [|discriminate]. apply Some_inj in ES. rewrite <- ES. auto.
    - destruct (_ && _); [|discriminate]. apply Some_inj in ES. rewrite <- ES. auto.
    - apply Some_inj in ES. rewrite <- ES. auto.
    - destruct (s_own s); [discriminate|]. apply Some_inj in ES. rewrite <- ES. destruct (KU s); [auto|contradiction].
    - destruct (s_sched s); apply Some_inj in ES; rewrite <- ES; auto. match goal with |- context [s_upd ev ?t] => destruct (KU t) as [->|]; [auto|contradiction] end.
    - apply Some_inj in ES. rewrite <- ES. auto. }
  destruct (lstep l o) as [l'|] eqn:EL, (sspec ev s o) as [s'|] eqn:ES; try contradiction; auto.
  specialize (KN l' eq_refl s' K eq_refl). specialize (IH l' s' K H2). destruct (lrun l' r), (srun ev s' r); auto. destruct IH as [? ?]. split; auto. congruence.
Qed.

(** The calls do to the stages, to the pending handlers and to the stall state exactly what [sspec] says, and fail exactly when it does. *)
Theorem C25_refines : forall n ev l0 ops, n < 2 ^ 31 -> l_init n ev = Some l0 -> Forall fits ops ->
  match lrun l0 ops, srun ev (s_init n ev) ops with
  | Some l, Some s =>
      appended (l_pipe l) :: map (fun j => read (l_pipe l) (N.of_nat j)) (seq 0 (N.to_nat n)) = s_cells s /\ l_calls l = s_calls s /\ l_sched l = s_sched s /\
      stalled l = (match s_stall s with Some _ => true | None => false end) /\
      forall j, j < n -> stalled_at l j = match s_stall s with Some (k, _, _) => j <=? N.of_nat k | None => false end
  | None, None => True
  | _, _ => False
  end.
Proof.
  intros n ev l0 ops Hn H0 HF. destruct (R_init n ev l0 Hn H0) as [HR En]. pose proof (R_run ev ops l0 _ HR HF) as K.
  destruct (lrun l0 ops) as [l|], (srun ev (s_init n ev) ops) as [s|]; auto. destruct K as [K Kn].
  pose proof (stalled_st _ _ _ K) as ES. destruct K as [Gp V Hev Hact Hle Hown Hsch Hcalls HS].
  split; [rewrite <- V; unfold view; rewrite Kn, En; auto|]. split; auto. split; auto. split; auto.
  intros j Hj. unfold stalled_at. rewrite ES. destruct (s_stall s) as [[[k c] lo]|]; auto. destruct HS as (_ & -> & _). auto.
Qed.

(* Properties of settle. *)
Lemma settle_data : forall free L i, data (settle free i L) = data L.
Proof.
  induction L as [|x r IH]; intros i; auto. rewrite settle_cons. specialize (IH (S i)). destruct x as [a|].
  - change (data (Some a :: r)) with (a :: data r). rewrite <- IH. destruct (settle free (S i) r) as [|[b|] t]; auto. destruct (free i); auto.
  - destruct (settle free (S i) r) as [|[b|] t]; exact IH.
Qed.
Lemma settle_stay : forall free L i j a, nth j L None = Some a -> free (i + j)%nat = false -> nth j (settle free i L) None = Some a.
Proof.
  induction L as [|x r IH]; intros i j a H HF; [destruct j; discriminate|]. rewrite settle_cons. destruct j as [|j].
  - cbn in H. subst x. rewrite Nat.add_0_r in HF. rewrite HF. destruct (settle free (S i) r) as [|[b|] t]; auto.
  - cbn in H. specialize (IH (S i) j a H). rewrite Nat.add_succ_r in HF. specialize (IH HF). destruct x as [b|].
    + destruct (settle free (S i) r) as [|[d|] t]; auto. destruct (free i); auto. destruct j; [discriminate|auto].
    + destruct (settle free (S i) r) as [|[d|] t]; auto.
Qed.
(* A datum that may go, with a gap ahead. *)
Lemma settle_gap : forall free L i g, (g < length L)%nat -> nth g L None = None -> (forall j, (j < g)%nat -> free (i + j)%nat = true) -> exists t, settle free i L = None :: t.
Proof.
  induction L as [|x r IH]; intros i g Hg HN HF; [simpl in Hg; lia|]. rewrite settle_cons. destruct x as [a|]; [|destruct (settle free (S i) r) as [|[d|] t]; eauto].
  destruct g as [|g]; [discriminate|]. destruct (IH (S i) g) as (t & E); [simpl in Hg; lia|auto| |].
  - intros j Hj. specialize (HF (S j) ltac:(lia)). rewrite Nat.add_succ_r in HF. auto.
  - rewrite E. specialize (HF 0%nat ltac:(lia)). rewrite Nat.add_0_r in HF. rewrite HF. eauto.
Qed.
Lemma settle_go : forall free L i j g a, nth j L None = Some a -> (j < g < length L)%nat -> nth g L None = None -> (forall h, (j <= h < g)%nat -> free (i + h)%nat = true) ->
  nth (S j) (settle free i L) None = Some a.
Proof.
  induction L as [|x r IH]; intros i j g a Hj Hg HN HF; [destruct j; discriminate|]. rewrite settle_cons. destruct j as [|j].
  - cbn in Hj. subst x. destruct g as [|g]; [lia|]. destruct (settle_gap free r (S i) g) as (t & E); [simpl in Hg; lia|auto| |].
    + intros h Hh. specialize (HF (S h) ltac:(lia)). rewrite Nat.add_succ_r in HF. auto.
    + rewrite E. specialize (HF 0%nat ltac:(lia)). rewrite Nat.add_0_r in HF. rewrite HF. auto.
  - destruct g as [|g]; [lia|]. cbn in Hj, HN. assert (K : nth (S j) (settle free (S i) r) None = Some a).
    { apply (IH (S i) j g a); auto; [simpl in Hg; lia|]. intros h Hh. specialize (HF (S h) ltac:(lia)). rewrite Nat.add_succ_r in HF. auto. }
    destruct x as [b|]; destruct (settle free (S i) r) as [|[d|] t]; auto. destruct (free i); auto.
Qed.

Lemma settle_keep : forall free pre (r : list (option A)) i a, nth 0 (settle free (i + length pre) r) None = Some a -> nth (length pre) (settle free i (pre ++ r)) None = Some a.
Proof.
  induction pre as [|x pre IH]; intros r i a H; [cbn in *; rewrite Nat.add_0_r in H; auto|]. cbn [app length]. rewrite settle_cons.
  specialize (IH r (S i) a). cbn [length] in H. rewrite Nat.add_succ_r in H. specialize (IH H). destruct x as [b|]; destruct (settle free (S i) (pre ++ r)) as [|[d|] t]; auto.
  destruct (free i); auto. destruct (length pre); [discriminate|auto].
Qed.
Lemma settle_tail : forall free (pre r : list (option A)) i, skipn (S (length pre)) (settle free i (pre ++ r)) = skipn 1 (settle free (i + length pre) r).
Proof.
  induction pre as [|x pre IH]; intros r i; [cbn [app length]; rewrite Nat.add_0_r; auto|]. cbn [app length]. rewrite settle_cons.
  specialize (IH r (S i)). rewrite Nat.add_succ_r. cbn [Nat.add] in IH. rewrite <- IH. destruct x as [b|]; destruct (settle free (S i) (pre ++ r)) as [|[d|] t]; auto.
  destruct (free i); auto.
Qed.
Lemma settle_full : forall free L i, (forall j, (j < length L)%nat -> nth j L None <> None) -> settle free i L = L.
Proof.
  induction L as [|x r IH]; intros i H; auto. rewrite settle_cons, IH by (intros j Hj; apply (H (S j)); simpl; lia).
  destruct x as [a|]; [|exfalso; apply (H 0%nat); simpl; auto; lia]. destruct r as [|[b|] r]; auto. exfalso. apply (H 1%nat); simpl; auto. lia.
Qed.
(* The empty stages between stage j and stage k. *)
Definition holes L : nat := length (filter (fun x => negb (ok x)) L).
Definition gaps L (j k : nat) : nat := holes (skipn (S (S j)) (firstn (k + 2) L)).
Lemma holes_cnt : forall L, (holes L + length (data L) = length L)%nat.
Proof.
  induction L as [|[a|] L IH]; auto.
  - change (data (Some a :: L)) with (a :: data L). change (holes (Some a :: L)) with (holes L). cbn [length]. lia.
  - change (data (None :: L)) with (data L). change (holes (None :: L)) with (S (holes L)). cbn [length]. lia.
Qed.
Lemma holes_0 : forall L, holes L = 0%nat -> forall j, (j < length L)%nat -> nth j L None <> None.
Proof.
  induction L as [|x L IH]; intros H j Hj; [simpl in Hj; lia|]. unfold holes in *. cbn [filter] in H. destruct x as [a|]; cbn [ok negb] in H; [|discriminate].
  destruct j; [discriminate|]. cbn. apply IH; auto. simpl in Hj; lia.
Qed.
Lemma holes_pos : forall L, (0 < holes L)%nat -> exists g, (g < length L)%nat /\ nth g L None = None.
Proof.
  induction L as [|x L IH]; intros H; [cbn in H; lia|]. destruct x as [a|]; [|exists 0%nat; simpl; split; auto; lia].
  unfold holes in *. cbn in H. destruct (IH H) as (g & Hg & E). exists (S g). simpl. split; auto. lia.
Qed.
Lemma split_at : forall {B} (M : list B) j d, (j < length M)%nat -> M = firstn j M ++ nth j M d :: skipn (S j) M.
Proof. induction M as [|x M IH]; intros j d H; [simpl in H; lia|]. destruct j; auto. cbn [firstn nth skipn app]. f_equal. apply IH. simpl in H; lia. Qed.
(* One update of the held part, bubbles being closed. M: the append slot and the stages up to k. *)
Lemma settle_crush : forall free (M : list (option A)) j a f, nth j M None = Some a -> (j < length M)%nat -> (forall h, (h < f)%nat -> free h = true) ->
  (forall h, (f <= h < length M)%nat -> nth h M None <> None) ->
  let e := holes (skipn (S j) M) in
  nth (j + Nat.min 1 e) (settle free 0 M) None = Some a /\ holes (skipn (S (j + Nat.min 1 e)) (settle free 0 M)) = (e - 1)%nat.
Proof.
  intros free M j a f Hj HL HF HO e. set (pre := firstn j M). set (suf := skipn (S j) M).
  assert (EM : M = pre ++ Some a :: suf) by (unfold pre, suf; rewrite <- Hj; apply split_at; auto).
  assert (HP : length pre = j) by (unfold pre; rewrite firstn_length; lia).
  assert (ES : e = holes suf) by reflexivity. destruct (Nat.eq_dec e 0) as [E0|E0].
  - assert (K : settle free (0 + length pre) (Some a :: suf) = Some a :: suf).
    { apply settle_full. intros [|i] Hi; [discriminate|]. change (nth i suf None <> None). apply holes_0; [rewrite <- ES; exact E0|]. simpl in Hi; lia. }
    rewrite E0. cbn [Nat.min]. rewrite Nat.add_0_r. rewrite EM at 1 2. rewrite <- HP at 1 2. rewrite settle_tail. split.
    + apply settle_keep. rewrite K. auto.
    + rewrite K. cbn [skipn]. rewrite <- ES, E0. auto.
  - destruct (holes_pos suf) as (g & Hg & EG); [lia|].
    assert (HG : (j + S g < f)%nat).
    { destruct (Nat.lt_ge_cases (j + S g) f) as [|HGE]; auto. exfalso. apply (HO (j + S g)%nat).
      - split; auto. rewrite EM, app_length. simpl. lia.
      - rewrite EM. rewrite app_nth2 by lia. replace (j + S g - length pre)%nat with (S g) by lia. auto. }
    destruct (settle_gap free suf (S (0 + length pre)) g Hg EG) as (t & Et).
    { intros h Hh. apply HF. lia. }
    assert (K : settle free (0 + length pre) (Some a :: suf) = None :: Some a :: t).
    { rewrite settle_cons, Et. rewrite HF by lia. auto. }
    replace (Nat.min 1 e) with 1%nat by lia. pose proof (settle_tail free pre (Some a :: suf) 0) as TL. rewrite <- EM, K in TL. change (skipn 1 (None :: Some a :: t)) with (Some a :: t) in TL. rewrite HP in TL.
    assert (EN : nth (j + 1) (settle free 0 M) None = Some a).
    { pose proof (nth_skipn' (settle free 0 M) (S j) 0 None) as X. rewrite TL in X. cbn in X. rewrite X. f_equal. lia. }
    split; auto. replace (skipn (S (j + 1)) (settle free 0 M)) with t.
    + pose proof (holes_cnt t). pose proof (holes_cnt suf). assert (length (data t) = length (data suf)) by (rewrite <- (settle_data free suf (S (0 + length pre))), Et; auto).
      assert (length (None :: t) = length suf) by (rewrite <- Et; apply settle_len). simpl in H2. lia.
    + replace (S (j + 1)) with (1 + S j)%nat by lia.
      assert (SK : forall (X : list (option A)) u v, skipn u (skipn v X) = skipn (v + u) X). { clear. induction X; intros u v; destruct v; cbn; auto; destruct u; auto. }
      replace (1 + S j)%nat with (S j + 1)%nat by lia. rewrite <- SK, TL. auto.
Qed.

(* Calls that move data only forwards: appends, updates, changes of the handlers. *)
Definition plain_op (o : lop A) : bool :=
  match o with PAppend _ | PUpdate | PFire | PActivate _ | PDeactivate _ | POwn | PCalls | PFlushAppend => true | _ => false end.
(* The number of updates performed. *)
Definition upd1 l (o : lop A) : nat := match o with PUpdate => 1 | PFire => if l_sched l then 1 else 0 | _ => 0 end.
Fixpoint ups l (ops : list (lop A)) : nat :=
  match ops with [] => 0 | o :: r => upd1 l o + match lstep l o with Some l' => ups l' r | None => 0 end end.

Lemma plain_step : forall ev l s o s', R ev l s -> sspec ev s o = Some s' -> plain_op o = true ->
  match upd1 l o with
  | O => tl (s_cells s') = tl (s_cells s) /\ s_stall s' = s_stall s
  | _ => upd1 l o = 1%nat /\ s_cells s' = s_cells (s_upd ev s) /\ s_stall s' = s_stall (s_upd ev s)
  end.
Proof.
  intros ev l s o s' HR ES HP. destruct o as [a|j a|j|k c crush supp| |j| | |j|j| | | |]; try discriminate; cbn [sspec upd1] in *.
  - destruct (s_cells s) as [|[b|] q] eqn:E; try discriminate. apply Some_inj in ES. rewrite <- ES. auto.
  - apply Some_inj in ES. rewrite <- ES. auto.
  - destruct (_ && _); [|discriminate]. apply Some_inj in ES. rewrite <- ES. auto.
  - destruct (_ && _); [|discriminate]. apply Some_inj in ES. rewrite <- ES. auto.
  - apply Some_inj in ES. rewrite <- ES. auto.
  - destruct (s_own s); [discriminate|]. apply Some_inj in ES. rewrite <- ES. auto.
  - rewrite (R_sched _ _ _ HR). destruct (s_sched s); apply Some_inj in ES; rewrite <- ES; auto. split; auto. unfold s_upd. cbn [s_cells s_stall].
    destruct (s_stall s) as [[[k c] lo]|]; auto. destruct (c =? 1); auto.
  - apply Some_inj in ES. rewrite <- ES. auto.
Qed.
Lemma nth_tl : forall {B} (L : list B) i d, nth i (tl L) d = nth (S i) L d.
Proof. destruct L; auto. intros. destruct i; auto. Qed.
Lemma adv_nth : forall L i, (S i < length L)%nat -> nth (S i) (advance L) None = nth i L None.
Proof. intros L i H. unfold advance. cbn [nth]. rewrite nth_removelast'. destruct (Nat.ltb_spec (S i) (length L)); [auto|lia]. Qed.
Lemma stall_low : forall adv k L i, (k + 2 <= length L)%nat -> (i < k + 2)%nat -> nth i (stall_cells adv k L) None = nth i (settle (free_of adv) 0 (firstn (k + 2) L)) None.
Proof. intros. unfold stall_cells. apply app_nth1. rewrite settle_len, firstn_length. lia. Qed.
Lemma stall_high : forall adv k L i, (k + 2 <= i)%nat -> (S i < length L)%nat -> nth (S i) (stall_cells adv k L) None = nth i L None.
Proof.
  intros adv k L i H1 H2. unfold stall_cells. assert (HL : length (settle (free_of adv) 0 (firstn (k + 2) L)) = (k + 2)%nat) by (rewrite settle_len, firstn_length; lia).
  rewrite app_nth2 by lia. rewrite HL. assert (HS : length (skipn (k + 2) L) = (length L - (k + 2))%nat) by apply skipn_length.
  destruct (skipn (k + 2) L) as [|x t] eqn:E; [simpl in HS; lia|]. unfold advance_free. replace (S i - (k + 2))%nat with (S (i - (k + 2)))%nat by lia.
  rewrite adv_nth by lia. rewrite <- E, nth_skipn'. f_equal. lia.
Qed.

(* Free phase. *)
Lemma free_run : forall ev ops l s l' a j, R ev l s -> s_stall s = None -> Forall fits ops -> forallb plain_op ops = true -> lrun l ops = Some l' ->
  nth (S j) (s_cells s) None = Some a -> N.of_nat (j + ups l ops) < p_n (l_pipe l) -> read (l_pipe l') (N.of_nat (j + ups l ops)) = Some a.
Proof.
  induction ops as [|o r IH]; intros l s l' a j HR HS HF HP H Ha HB.
  - cbn in H. injection H as <-. cbn [ups] in *. rewrite Nat.add_0_r in *. rewrite read_nth by (auto; apply HR). rewrite (R_v _ _ _ HR), Nat2N.id. auto.
  - inversion HF; subst. cbn [forallb] in HP. apply andb_prop in HP as [HP1 HP2]. cbn [lrun ups] in *.
    pose proof (R_step ev l s o HR H2) as K. destruct (lstep l o) as [l1|] eqn:EL; [|discriminate]. destruct (sspec ev s o) as [s1|] eqn:ES; [|contradiction].
    pose proof (plain_step ev l s o s1 HR ES HP1) as PS.
    assert (En : p_n (l_pipe l1) = p_n (l_pipe l)). { pose proof (R_run ev [o] l s HR (Forall_cons _ H2 (Forall_nil _))) as KK. cbn in KK. rewrite EL, ES in KK. apply KK. }
    destruct (upd1 l o) as [|[|u]] eqn:EU.
    + destruct PS as [PS1 PS2]. cbn [Nat.add]. apply (IH l1 s1 l' a j); auto; [congruence| |].
      * rewrite <- nth_tl, PS1, nth_tl. auto.
      * cbn in HB. rewrite En. auto.
    + destruct PS as (_ & PS1 & PS2). unfold s_upd in PS1, PS2. rewrite HS in PS1, PS2. cbn [s_cells s_stall] in PS1, PS2.
      replace (j + (1 + ups l1 r))%nat with (S j + ups l1 r)%nat in * by lia. apply (IH l1 s1 l' a (S j)); auto; [|rewrite En; auto].
      rewrite PS1. pose proof (R_size _ _ _ HR) as SZ. unfold size in SZ. rewrite adv_nth by lia. auto.
    + destruct PS as [PS _]. discriminate.
Qed.

(* The datum at stage j is behind the stalled stage k, or is that stage's own; e gaps ahead are going to be closed. *)
Definition waits (s : sst) (k : nat) (c : N) (lo j e : nat) (a : A) : Prop :=
  s_stall s = Some (k, c, lo) /\ (j <= k)%nat /\ nth (S j) (s_cells s) None = Some a /\
  (lo = 0%nat /\ e = 0%nat \/ e = gaps (s_cells s) j k /\ forall h, (lo <= h <= k)%nat -> nth (S h) (s_cells s) None <> None).
Lemma waits_gap : forall s k c lo j e a, waits s k c lo j e a -> (k + 2 <= length (s_cells s))%nat -> (j + Nat.min 1 e <= k)%nat.
Proof.
  intros s k c lo j e a (HS & HJ & HA & HC) HL. destruct HC as [[_ ->]|[-> HO]]; [cbn; lia|].
  destruct (Nat.eq_dec j k) as [->|]; [|lia]. unfold gaps. rewrite skipn_all2 by (rewrite firstn_length; lia). cbn. lia.
Qed.
Lemma waits_upd : forall ev s k c lo j e a, waits s k c lo j e a -> (k + 2 <= length (s_cells s))%nat -> 0 < c ->
  let s' := s_upd ev s in let j' := (j + Nat.min 1 e)%nat in
  nth (S j') (s_cells s') None = Some a /\
  (if c =? 1 then s_stall s' = None else waits s' k (c - 1) lo j' (e - 1) a).
Proof.
  intros ev s k c lo j e a W HL Hc s' j'. pose proof (waits_gap s k c lo j e a W HL) as HJ'. fold j' in HJ'. destruct W as (HS & HJ & HA & HC).
  assert (EC : s_cells s' = stall_cells (movable lo k) k (s_cells s)). { unfold s', s_upd. rewrite HS. destruct (c =? 1); auto. }
  assert (EST : s_stall s' = if c =? 1 then None else Some (k, c - 1, lo)). { unfold s', s_upd. rewrite HS. destruct (c =? 1); auto. }
  set (M := firstn (k + 2) (s_cells s)). assert (HM : length M = (k + 2)%nat) by (unfold M; rewrite firstn_length; lia).
  assert (NM : forall i, (i < k + 2)%nat -> nth i M None = nth i (s_cells s) None). { intros i Hi. unfold M. rewrite nth_firstn'. destruct (Nat.ltb_spec i (k + 2)); [auto|lia]. }
  assert (LOW : forall i, (i < k + 2)%nat -> nth i (s_cells s') None = nth i (settle (free_of (movable lo k)) 0 M) None) by (intros i Hi; rewrite EC; apply stall_low; auto).
  assert (FR : forall h, (lo <= h <= k)%nat -> free_of (movable lo k) (S h) = false).
  { intros h Hh. cbn. unfold movable, held. destruct (N.leb_spec (N.of_nat lo) (N.of_nat h)), (N.leb_spec (N.of_nat h) (N.of_nat k)); try lia; auto. }
  assert (FT : forall h, (h < S lo)%nat -> free_of (movable lo k) h = true).
  { intros [|h] Hh; auto. cbn. unfold movable, held. destruct (N.leb_spec (N.of_nat lo) (N.of_nat h)); [lia|auto]. }
  destruct HC as [[-> ->]|[He HO]].
  - unfold j' in *. cbn [Nat.min] in *. rewrite Nat.add_0_r in *. assert (KA : nth (S j) (s_cells s') None = Some a).
    { rewrite LOW by lia. apply settle_stay; [rewrite NM by lia; auto|apply FR; lia]. }
    split; auto. destruct (N.eqb_spec c 1); [auto|]. split; auto.
  - destruct (settle_crush (free_of (movable lo k)) M (S j) a (S lo)) as [C1 C2]; [rewrite NM by lia; auto|lia|auto| |].
    { intros [|h] Hh; [lia|]. rewrite NM by lia. apply HO. lia. }
    change (holes (skipn (S (S j)) M)) with (gaps (s_cells s) j k) in C1, C2. rewrite <- He in C1, C2. assert (KA : nth (S j') (s_cells s') None = Some a) by (rewrite LOW by lia; exact C1).
    split; auto. destruct (N.eqb_spec c 1); [auto|]. split; auto. split; auto. split; auto. right. split.
    + rewrite <- C2. unfold gaps. rewrite EC. unfold stall_cells. fold M. rewrite firstn_app, settle_len, HM, Nat.sub_diag. cbn [firstn]. rewrite app_nil_r.
      rewrite firstn_all2 by (rewrite settle_len; lia). auto.
    + intros h Hh. rewrite LOW by lia. destruct (nth (S h) (s_cells s) None) as [b|] eqn:Eb; [|exfalso; apply (HO h); auto].
      rewrite (settle_stay _ _ _ (S h) b); [discriminate|rewrite NM by lia; auto|apply FR; auto].
Qed.
Lemma waits_tl : forall s s' k c lo j e a, waits s k c lo j e a -> tl (s_cells s') = tl (s_cells s) -> s_stall s' = s_stall s -> waits s' k c lo j e a.
Proof.
  intros s s' k c lo j e a (HS & HJ & HA & HC) HT HE. assert (NT : forall i, nth (S i) (s_cells s') None = nth (S i) (s_cells s) None) by (intros; rewrite <- !nth_tl, HT; auto).
  split; [congruence|]. split; auto. split; [rewrite NT; auto|]. destruct HC as [HC|[HC HO]]; [left; auto|right]. split.
  - rewrite HC. unfold gaps. f_equal. replace (k + 2)%nat with (S (k + 1)) by lia.
    assert (TL : forall L, skipn (S (S j)) (firstn (S (k + 1)) L) = skipn (S j) (firstn (k + 1) (tl L))) by (intros [|x t]; auto; destruct k; auto).
    rewrite !TL, HT. auto.
  - intros h Hh. rewrite NT. auto.
Qed.
Lemma hold_run : forall ev k lo ops l s l' c j e a, R ev l s -> waits s k c lo j e a -> Forall fits ops -> forallb plain_op ops = true -> lrun l ops = Some l' ->
  let m := ups l ops in let pos := (j + Nat.min (Nat.min m (N.to_nat c)) e + (m - N.to_nat c))%nat in
  N.of_nat pos < p_n (l_pipe l) -> read (l_pipe l') (N.of_nat pos) = Some a.
Proof.
  intros ev k lo. induction ops as [|o r IH]; intros l s l' c j e a HR W HF HP H m pos HB.
  - cbn in H. injection H as <-. unfold pos, m in *. cbn [ups Nat.min Nat.sub] in *. rewrite !Nat.add_0_r in *. rewrite read_nth by (auto; apply HR). rewrite (R_v _ _ _ HR), Nat2N.id. apply W.
  - inversion HF; subst. cbn [forallb] in HP. apply andb_prop in HP as [HP1 HP2]. cbn [lrun ups] in *.
    pose proof (R_step ev l s o HR H2) as K. destruct (lstep l o) as [l1|] eqn:EL; [|discriminate]. destruct (sspec ev s o) as [s1|] eqn:ES; [|contradiction].
    pose proof (plain_step ev l s o s1 HR ES HP1) as PS.
    assert (En : p_n (l_pipe l1) = p_n (l_pipe l)). { pose proof (R_run ev [o] l s HR (Forall_cons _ H2 (Forall_nil _))) as KK. cbn in KK. rewrite EL, ES in KK. apply KK. }
    pose proof (R_size _ _ _ HR) as SZ. unfold size in SZ.
    assert (HSt : 0 < c /\ N.of_nat k < p_n (l_pipe l)). { pose proof (R_stall _ _ _ HR) as RS. destruct W as (W1 & _). rewrite W1 in RS. destruct RS as (_ & _ & ? & ? & _). lia. }
    destruct (upd1 l o) as [|[|u]] eqn:EU.
    + destruct PS as [PS1 PS2]. cbn [Nat.add] in m. apply (IH l1 s1 l' c j e a); auto; [apply (waits_tl s s1); auto|]. rewrite En. auto.
    + destruct PS as (_ & PS1 & PS2). destruct (waits_upd ev s k c lo j e a W ltac:(lia) ltac:(lia)) as [U1 U2]. rewrite <- PS1 in U1.
      destruct (N.eqb_spec c 1) as [->|Hc].
      * assert (EP : pos = (j + Nat.min 1 e + ups l1 r)%nat). { unfold pos, m. change (N.to_nat 1) with 1%nat. rewrite (Nat.min_r (1 + ups l1 r) 1) by lia. lia. }
        rewrite EP in *. apply (free_run ev r l1 s1); auto; [congruence|]. rewrite En. auto.
      * assert (EP : pos = (j + Nat.min 1 e + Nat.min (Nat.min (ups l1 r) (N.to_nat (c - 1))) (e - 1) + (ups l1 r - N.to_nat (c - 1)))%nat).
        { unfold pos, m. replace (N.to_nat c) with (S (N.to_nat (c - 1))) by lia. cbn [Nat.add]. rewrite <- Nat.succ_min_distr. cbn [Nat.sub]. destruct e as [|e]; [cbn; rewrite !Nat.min_0_r; lia|].
          rewrite <- Nat.succ_min_distr. cbn [Nat.min Nat.sub]. rewrite Nat.sub_0_r. lia. }
        rewrite EP in *. apply (IH l1 s1); auto; [|rewrite En; auto]. destruct U2 as (W1 & W2 & W3 & W4). split; [congruence|]. split; auto. split; [auto|]. rewrite PS1. auto.
    + destruct PS as [PS _]. discriminate.
Qed.
Lemma ahead_run : forall ev k ops l s l' a j, R ev l s -> (match s_stall s with Some (k', _, _) => k' = k | None => True end) -> (k < j)%nat -> Forall fits ops -> forallb plain_op ops = true -> lrun l ops = Some l' ->
  nth (S j) (s_cells s) None = Some a -> N.of_nat (j + ups l ops) < p_n (l_pipe l) -> read (l_pipe l') (N.of_nat (j + ups l ops)) = Some a.
Proof.
  intros ev k. induction ops as [|o r IH]; intros l s l' a j HR HS HK HF HP H Ha HB.
  - cbn in H. injection H as <-. cbn [ups] in *. rewrite Nat.add_0_r in *. rewrite read_nth by (auto; apply HR). rewrite (R_v _ _ _ HR), Nat2N.id. auto.
  - inversion HF; subst. cbn [forallb] in HP. apply andb_prop in HP as [HP1 HP2]. cbn [lrun ups] in *.
    pose proof (R_step ev l s o HR H2) as K. destruct (lstep l o) as [l1|] eqn:EL; [|discriminate]. destruct (sspec ev s o) as [s1|] eqn:ES; [|contradiction].
    pose proof (plain_step ev l s o s1 HR ES HP1) as PS.
    assert (En : p_n (l_pipe l1) = p_n (l_pipe l)). { pose proof (R_run ev [o] l s HR (Forall_cons _ H2 (Forall_nil _))) as KK. cbn in KK. rewrite EL, ES in KK. apply KK. }
    pose proof (R_size _ _ _ HR) as SZ. unfold size in SZ.
    destruct (upd1 l o) as [|[|u]] eqn:EU.
    + destruct PS as [PS1 PS2]. cbn [Nat.add]. apply (IH l1 s1 l' a j); auto.
      * rewrite PS2. auto.
      * rewrite <- nth_tl, PS1, nth_tl. auto.
      * cbn in HB. rewrite En. auto.
    + destruct PS as (_ & PS1 & PS2). replace (j + (1 + ups l1 r))%nat with (S j + ups l1 r)%nat in * by lia. apply (IH l1 s1 l' a (S j)); auto; try (rewrite En; auto; fail).
      * rewrite PS2. unfold s_upd. destruct (s_stall s) as [[[k' c] lo]|]; [|auto]. destruct (c =? 1); cbn [s_stall]; auto.
      * rewrite PS1. unfold s_upd. destruct (s_stall s) as [[[k' c] lo]|].
        -- subst k'. replace (s_cells (if c =? 1 then _ else _)) with (stall_cells (movable lo k) k (s_cells s)) by (destruct (c =? 1); auto). rewrite stall_high by lia. auto.
        -- cbn [s_cells]. rewrite adv_nth by lia. auto.
    + destruct PS as [PS _]. discriminate.
Qed.

Lemma reach_R : forall n ev l0 ops l, n < 2 ^ 31 -> l_init n ev = Some l0 -> Forall fits ops -> lrun l0 ops = Some l -> exists s, R ev l s /\ p_n (l_pipe l) = n.
Proof.
  intros n ev l0 ops l Hn H0 HF H. destruct (R_init n ev l0 Hn H0) as [HR En]. pose proof (R_run ev ops l0 _ HR HF) as K. rewrite H in K.
  destruct (srun ev (s_init n ev) ops) as [s|]; [|contradiction]. exists s. destruct K. split; auto. congruence.
Qed.
(* The number of empty stages between j and k, or 0 if bubbles are not closed. *)
Definition to_close l (crush : bool) (j k : N) : nat :=
  if crush then length (filter (fun i => match read (l_pipe l) (N.of_nat i) with Some _ => false | None => true end) (seq (S (N.to_nat j)) (N.to_nat k - N.to_nat j))) else 0.
Lemma gaps_read : forall p j k, PI p -> N.of_nat k < p_n p -> (j <= k)%nat -> gaps (view p) j k = length (filter (fun i => match read p (N.of_nat i) with Some _ => false | None => true end) (seq (S j) (k - j))).
Proof.
  intros p j k I Hk Hj. unfold gaps, holes.
  assert (E : skipn (S (S j)) (firstn (k + 2) (view p)) = map (fun i => read p (N.of_nat i)) (seq (S j) (k - j))).
  { assert (HL : length (view p) = S (N.to_nat (p_n p))) by apply view_len. apply (list_eq_nth _ _ None); [rewrite skipn_length, firstn_length, map_length, seq_length; lia|].
    intros i Hi. rewrite skipn_length, firstn_length in Hi. rewrite nth_skipn', nth_firstn'. destruct (Nat.ltb_spec (S (S j) + i) (k + 2)); [|lia].
    pose proof (map_nth (fun i => read p (N.of_nat i)) (seq (S j) (k - j)) 0%nat i) as X. cbn beta in X. symmetry. etransitivity; [|etransitivity; [exact X|]].
    - apply nth_indep. rewrite map_length, seq_length. lia.
    - rewrite seq_nth by lia. rewrite read_nth by (auto; lia). f_equal. lia. }
  rewrite E, <- (filter_map_len (fun i => read p (N.of_nat i)) (fun x => negb (ok x))). f_equal. apply filter_ext. intros i. destruct (read p (N.of_nat i)); auto.
Qed.
Lemma bottom_full : forall L c h, (bottom L c <= h < c)%nat -> nth (S h) L None <> None.
Proof.
  induction c as [|c IH]; intros h Hh; [lia|]. cbn [bottom] in Hh. destruct (nth (S c) L None) as [b|] eqn:E; cbn [ok] in Hh; [|lia].
  destruct (Nat.eq_dec h c) as [->|]; [congruence|]. apply IH. lia.
Qed.

(** Held for exactly c updates. After stall(k, c), whatever is appended and however the updates are triggered, the datum of a stage j <= k
    stays at stage j for c updates and then moves on by one stage per update; with crush_bubbles it first closes the e gaps between it and
    stage k, one stage per update. m is the number of updates performed since the stall. *)
Theorem C25_held : forall n ev l0 ops0 l k c crush supp l1 ops l2 j a, n < 2 ^ 31 -> l_init n ev = Some l0 -> Forall fits ops0 -> lrun l0 ops0 = Some l ->
  0 < c < 2 ^ 32 -> stall l k c crush supp = Some l1 -> forallb plain_op ops = true -> lrun l1 ops = Some l2 ->
  j <= k -> read (l_pipe l) j = Some a ->
  let m := ups l1 ops in let e := to_close l crush j k in
  let pos := (N.to_nat j + Nat.min (Nat.min m (N.to_nat c)) e + (m - N.to_nat c))%nat in
  N.of_nat pos < n -> read (l_pipe l2) (N.of_nat pos) = Some a.
Proof.
  intros n ev l0 ops0 l k c crush supp l1 ops l2 j a Hn H0 HF0 H HC HST HP HR2 Hjk HA m e pos HB.
  destruct (reach_R n ev l0 ops0 l Hn H0 HF0 H) as (s & HR & En). pose proof (R_step ev l s (PStall k c crush supp) HR ltac:(cbn; lia)) as K. cbn [lstep] in K. rewrite HST in K.
  destruct (sspec ev s (PStall k c crush supp)) as [s1|] eqn:ES; [|contradiction]. cbn [sspec] in ES.
  destruct (N.ltb_spec k (size (s_cells s))) as [Hk|]; [|discriminate]. cbn [andb] in ES. destruct (ok (cell (s_cells s) k)) eqn:EO; [|discriminate].
  destruct (s_stall s) eqn:EST; [discriminate|]. destruct (N.eqb_spec c 0); [lia|]. apply Some_inj in ES. rewrite (R_size _ _ _ HR) in Hk.
  pose proof (R_v _ _ _ HR) as V. rewrite read_nth in HA by (try apply HR; lia). rewrite V in HA.
  assert (HF : Forall fits ops). { apply Forall_forall. intros o Ho. rewrite forallb_forall in HP. specialize (HP o Ho). destruct o; cbn; auto; discriminate. }
  set (lo := if crush then bottom (s_cells s) (S (N.to_nat k)) else 0%nat) in *.
  assert (En1 : p_n (l_pipe l1) = p_n (l_pipe l)). { rewrite <- (R_size _ _ _ HR), <- (R_size _ _ _ K), <- ES. auto. }
  apply (hold_run ev (N.to_nat k) lo ops l1 s1 l2 c (N.to_nat j) e a); auto; [|change (N.of_nat pos < p_n (l_pipe l1)); lia].
  rewrite <- ES. split; auto. split; [lia|]. split; auto. unfold e, to_close, lo. destruct crush; [right|left; auto]. cbn [s_cells]. split.
  - rewrite <- V, gaps_read by (try apply HR; lia). auto.
  - intros h Hh. apply (bottom_full _ (S (N.to_nat k))). lia.
Qed.
(** The stages ahead of the stalled one keep moving, one stage per update. *)
Theorem C25_ahead : forall n ev l0 ops0 l k c crush supp l1 ops l2 j a, n < 2 ^ 31 -> l_init n ev = Some l0 -> Forall fits ops0 -> lrun l0 ops0 = Some l ->
  c < 2 ^ 32 -> stall l k c crush supp = Some l1 -> forallb plain_op ops = true -> lrun l1 ops = Some l2 ->
  k < j -> read (l_pipe l) j = Some a -> j + N.of_nat (ups l1 ops) < n -> read (l_pipe l2) (j + N.of_nat (ups l1 ops)) = Some a.
Proof.
  intros n ev l0 ops0 l k c crush supp l1 ops l2 j a Hn H0 HF0 H HC HST HP HR2 Hjk HA HB.
  destruct (reach_R n ev l0 ops0 l Hn H0 HF0 H) as (s & HR & En). pose proof (R_step ev l s (PStall k c crush supp) HR ltac:(cbn; lia)) as K. cbn [lstep] in K. rewrite HST in K.
  destruct (sspec ev s (PStall k c crush supp)) as [s1|] eqn:ES; [|contradiction]. cbn [sspec] in ES.
  destruct (N.ltb_spec k (size (s_cells s))) as [Hk|]; [|discriminate]. cbn [andb] in ES. destruct (ok (cell (s_cells s) k)) eqn:EO; [|discriminate].
  destruct (s_stall s) eqn:EST; [discriminate|].
  rewrite read_nth in HA by (try apply HR; lia). rewrite (R_v _ _ _ HR) in HA.
  assert (HF : Forall fits ops). { apply Forall_forall. intros o Ho. rewrite forallb_forall in HP. specialize (HP o Ho). destruct o; cbn; auto; discriminate. }
  assert (E1 : s_cells s1 = s_cells s /\ match s_stall s1 with Some (k', _, _) => k' = N.to_nat k | None => True end).
  { destruct (c =? 0); apply Some_inj in ES; rewrite <- ES; cbn [s_cells s_stall]; rewrite ?EST; split; auto. }
  destruct E1 as [E1 E2]. assert (En1 : p_n (l_pipe l1) = p_n (l_pipe l)). { rewrite <- (R_size _ _ _ HR), <- (R_size _ _ _ K), E1. auto. }
  replace (j + N.of_nat (ups l1 ops)) with (N.of_nat (N.to_nat j + ups l1 ops)) in * by lia.
  apply (ahead_run ev (N.to_nat k) ops l1 s1 l2 a (N.to_nat j)); auto; [lia|congruence|lia].
Qed.

(* Nothing is lost. What leaves with an update: the datum of the last stage, unless that stage is the stalled one. *)
Definition leaving l (o : lop A) : list A :=
  match upd1 l o with O => [] | _ => if l_stage l =? p_n (l_pipe l) - 1 then [] else match read (l_pipe l) (p_n (l_pipe l) - 1) with Some a => [a] | None => [] end end.
Fixpoint left_out l (ops : list (lop A)) : list A :=
  match ops with [] => [] | o :: r => match lstep l o with Some l' => left_out l' r | None => [] end ++ leaving l o end.
Definition appended_by (ops : list (lop A)) : list A := data (rev (map (fun o => match o with PAppend a => Some a | _ => None end) ops)).
(* No call that overwrites or removes data. *)
Definition keeps (o : lop A) : bool := match o with PWrite _ _ | PInvalidate _ | PFlush _ | PFlushAll | PFlushAppend => false | _ => true end.

Lemma data_last : forall L, L <> [] -> data L = data (removelast L) ++ data [last L None].
Proof. intros L H. rewrite (app_removelast_last None H) at 1. apply data_app. Qed.
Lemma last_nth : forall L, L <> [] -> last L None = nth (length L - 1) L None.
Proof.
  induction L as [|x L IH]; [contradiction|]. intros _. destruct L as [|y L]; auto. change (last (x :: y :: L) None) with (last (y :: L) None). rewrite IH by discriminate.
  replace (length (x :: y :: L) - 1)%nat with (S (length (y :: L) - 1)) by (cbn [length]; lia). auto.
Qed.
Lemma upd_data : forall ev s n, N.of_nat (length (s_cells s)) = n + 1 -> (match s_stall s with Some (k, _, _) => N.of_nat k < n | None => True end) -> 0 < n ->
  data (s_cells s) = data (s_cells (s_upd ev s)) ++ (if match s_stall s with Some (k, _, _) => N.of_nat k =? n - 1 | None => false end then [] else data [nth (N.to_nat n) (s_cells s) None]).
Proof.
  intros ev s n HL HS Hn. unfold s_upd. destruct (s_stall s) as [[[k c] lo]|].
  - replace (s_cells (if c =? 1 then _ else _)) with (stall_cells (movable lo k) k (s_cells s)) by (destruct (c =? 1); auto).
    unfold stall_cells. rewrite data_app, settle_data. rewrite <- (firstn_skipn (k + 2) (s_cells s)) at 1. rewrite data_app, <- app_assoc. f_equal.
    assert (HK : length (skipn (k + 2) (s_cells s)) = (length (s_cells s) - (k + 2))%nat) by apply skipn_length.
    destruct (skipn (k + 2) (s_cells s)) as [|x t] eqn:E.
    + simpl in HK. destruct (N.eqb_spec (N.of_nat k) (n - 1)); [auto|lia].
    + simpl in HK. destruct (N.eqb_spec (N.of_nat k) (n - 1)); [lia|]. unfold advance_free. change (data (advance (x :: t))) with (data (removelast (x :: t))).
      rewrite (data_last (x :: t)) at 1 by discriminate. f_equal. f_equal. f_equal. rewrite last_nth by discriminate. rewrite <- E, nth_skipn'. f_equal. rewrite E. cbn [length]. lia.
  - cbn [s_cells]. change (data (advance (s_cells s))) with (data (removelast (s_cells s))). assert (s_cells s <> []) by (destruct (s_cells s); [simpl in HL; lia|discriminate]).
    rewrite (data_last (s_cells s)) at 1 by auto. f_equal. f_equal. f_equal. rewrite last_nth by auto. f_equal. lia.
Qed.
Lemma keep_step : forall ev l s o l' s', R ev l s -> R ev l' s' -> lstep l o = Some l' -> sspec ev s o = Some s' -> keeps o = true ->
  data (s_cells s') ++ leaving l o = data [match o with PAppend a => Some a | _ => None end] ++ data (s_cells s).
Proof.
  intros ev l s o l' s' HR HR' EL ES HK. unfold leaving.
  assert (KU : forall sc, data (s_cells s) = data (s_cells (s_upd ev (mkS (s_cells s) (s_stall s) (s_act s) (s_own s) sc (s_calls s)))) ++
    (if l_stage l =? p_n (l_pipe l) - 1 then [] else match read (l_pipe l) (p_n (l_pipe l) - 1) with Some a => [a] | None => [] end)).
  { intros sc. pose proof (R_size _ _ _ HR) as SZ. unfold size in SZ. pose proof (R_stall _ _ _ HR) as RS. assert (HN : 1 <= p_n (l_pipe l)) by (destruct (R_G _ _ _ HR) as [I _ _]; destruct I; auto).
    assert (HN2 : p_n (l_pipe l) < 2 ^ 31) by apply n_small, (R_G _ _ _ HR).
    set (t := mkS (s_cells s) (s_stall s) (s_act s) (s_own s) sc (s_calls s)). pose proof (upd_data ev t (p_n (l_pipe l))) as X.
    change (s_cells t) with (s_cells s) in X. change (s_stall t) with (s_stall s) in X. rewrite X; [|lia|destruct (s_stall s) as [[[k c] lo]|]; [apply RS|auto]|lia]. clear X.
    f_equal. rewrite read_nth by (try apply HR; lia). rewrite (R_v _ _ _ HR). replace (S (N.to_nat (p_n (l_pipe l) - 1))) with (N.to_nat (p_n (l_pipe l))) by lia.
    destruct (s_stall s) as [[[k c] lo]|].
    - destruct RS as (_ & -> & _). destruct (_ =? _); auto. destruct (nth _ _ _); auto.
    - destruct RS as (_ & -> & _). destruct (N.eqb_spec no_stage (p_n (l_pipe l) - 1)); [unfold no_stage in *; lia|]. destruct (nth _ _ _); auto. }
  destruct o as [a|j a|j|k c crush supp| |j| | |j|j| | | |]; try discriminate; cbn [sspec upd1] in *; rewrite ?app_nil_r.
  - destruct (s_cells s) as [|[b|] q] eqn:E; try discriminate. apply Some_inj in ES. rewrite <- ES. auto.
  - destruct (_ && _); [|discriminate]. destruct (s_stall s); [discriminate|]. destruct (c =? 0); apply Some_inj in ES; rewrite <- ES; auto.
  - destruct (s_stall s) as [[[k c] lo]|]; [|discriminate]. apply Some_inj in ES. rewrite <- ES. auto.
  - destruct (_ && _); [|discriminate]. apply Some_inj in ES. rewrite <- ES. auto.
  - destruct (_ && _); [|discriminate]. apply Some_inj in ES. rewrite <- ES. auto.
  - apply Some_inj in ES. rewrite <- ES. auto.
  - destruct (s_own s) eqn:EO; [discriminate|]. apply Some_inj in ES. rewrite <- ES. cbn [data flat_map app]. fold (data (s_cells s)). rewrite (KU (s_sched s)). rewrite <- EO. destruct s; auto.
  - rewrite (R_sched _ _ _ HR). destruct (s_sched s) eqn:ESC; apply Some_inj in ES; rewrite <- ES; cbn [data flat_map app]; fold (data (s_cells s)); rewrite ?app_nil_r; auto.
  - apply Some_inj in ES. rewrite <- ES. auto.
Qed.
(** Nothing is lost, duplicated or overtaken. Unless a call overwrites or removes data, the data appended, newest first, is the data in
    the pipeline, append slot first, followed by the data that left -- and data leaves only from the last stage, when that is not the
    stalled one. *)
Theorem C25_order : forall n ev l0 ops l, n < 2 ^ 31 -> l_init n ev = Some l0 -> Forall fits ops -> lrun l0 ops = Some l -> forallb keeps ops = true ->
  data (appended (l_pipe l) :: map (fun j => read (l_pipe l) (N.of_nat j)) (seq 0 (N.to_nat n))) ++ left_out l0 ops = appended_by ops.
Proof.
  assert (K : forall ev ops l s l', R ev l s -> Forall fits ops -> lrun l ops = Some l' -> forallb keeps ops = true -> data (view (l_pipe l')) ++ left_out l ops = appended_by ops ++ data (s_cells s)).
  { intros ev. induction ops as [|o r IH]; intros l s l' HR HF H HK.
    - cbn in H. injection H as <-. cbn [left_out]. rewrite app_nil_r, (R_v _ _ _ HR). auto.
    - inversion HF; subst. cbn [forallb lrun left_out] in *. apply andb_prop in HK as [HK1 HK2]. pose proof (R_step ev l s o HR H2) as KS. destruct (lstep l o) as [l1|] eqn:EL; [|discriminate].
      destruct (sspec ev s o) as [s1|] eqn:ES; [|contradiction]. rewrite app_assoc, (IH l1 s1 l'); auto. rewrite <- app_assoc, (keep_step ev l s o l1 s1) by auto.
      unfold appended_by. cbn [map rev]. rewrite data_app, <- app_assoc. auto. }
  intros n ev l0 ops l Hn H0 HF H HK. destruct (R_init n ev l0 Hn H0) as [HR En]. destruct (reach_R n ev l0 ops l Hn H0 HF H) as (s & _ & En').
  rewrite <- En'. change (data (view (l_pipe l)) ++ left_out l0 ops = appended_by ops). rewrite (K ev ops l0 (s_init n ev) l) by auto.
  cbn [s_init s_cells]. replace (data (repeat None (S (N.to_nat n)))) with (@nil A); [apply app_nil_r|]. clear. generalize (S (N.to_nat n)). induction n0; auto.
Qed.

Lemma upd_sched : forall ev s, s_own (s_upd ev s) = s_own s /\ s_calls (s_upd ev s) = pend (s_act s) (s_cells (s_upd ev s)) (s_calls s) /\
  s_sched (s_upd ev s) = s_sched s || (existsb ok (s_cells (s_upd ev s)) && s_own s).
Proof. intros. unfold s_upd. destruct (s_stall s) as [[[k c] lo]|]; [destruct (c =? 1)|]; cbn; auto. Qed.
Lemma ok_set_none : forall L j, existsb ok (set j None L) = true -> existsb ok L = true.
Proof.
  induction L as [|x L IH]; intros j H; destruct j; cbn in *; auto; [rewrite H; apply orb_true_r|].
  apply orb_prop in H as [->|H]; auto. rewrite (IH _ H). apply orb_true_r.
Qed.
Lemma flush_some : forall ev js s, existsb ok (s_cells (fold_left (s_flush ev) js s)) = true -> existsb ok (s_cells s) = true.
Proof.
  induction js as [|j js IH]; intros s H; auto. cbn [fold_left] in H. apply IH in H. apply (ok_set_none (s_cells s) (S (N.to_nat j))).
  unfold s_flush in H. destruct (s_stall s) as [[[k c] lo]|]; [destruct (j =? N.of_nat k)|]; exact H.
Qed.
Lemma flush_own : forall ev js s, s_own (fold_left (s_flush ev) js s) = s_own s /\ s_sched (fold_left (s_flush ev) js s) = s_sched s.
Proof.
  induction js as [|j js IH]; intros s; auto. cbn [fold_left]. destruct (IH (s_flush ev s j)) as [-> ->].
  unfold s_flush. destruct (s_stall s) as [[[k c] lo]|]; [destruct (j =? N.of_nat k)|]; auto.
Qed.
Definition PENDS (s : sst) : Prop := s_own s = true -> existsb ok (s_cells s) = true -> s_sched s = true.
Lemma pends_step : forall ev s o s', sspec ev s o = Some s' -> PENDS s -> PENDS s'.
Proof.
  intros ev s o s' ES H. unfold PENDS in *. assert (KT : forall L, s_own (s_touch s L) = true -> s_sched (s_touch s L) = true) by (intros L E; cbn in *; rewrite E; apply orb_true_r).
  assert (KU : forall t, s_own (s_upd ev t) = true -> existsb ok (s_cells (s_upd ev t)) = true -> s_sched (s_upd ev t) = true).
  { intros t E1 E2. destruct (upd_sched ev t) as (U1 & _ & ->). rewrite U1 in E1. rewrite E1, E2. apply orb_true_r. }
  destruct o as [a|j a|j|k c crush supp| |j| | |j|j| | | |]; cbn [sspec] in ES.
  - destruct (s_cells s) as [|[b|] q]; try discriminate. apply Some_inj in ES. rewrite <- ES. intros E1 _. apply KT. exact E1.
  - destruct (_ <? _); [|discriminate]. apply Some_inj in ES. rewrite <- ES. intros E1 _. apply KT. exact E1.
  - destruct (_ && _); [|discriminate]. apply Some_inj in ES. rewrite <- ES. intros E1 _. apply KT. exact E1.
  - destruct (_ && _); [|discriminate]. destruct (s_stall s); [discriminate|]. destruct (c =? 0); apply Some_inj in ES; rewrite <- ES; auto.
  - destruct (s_stall s) as [[[k c] lo]|]; [|discriminate]. apply Some_inj in ES. rewrite <- ES. auto.
  - destruct (_ <? _); [|discriminate]. apply Some_inj in ES. rewrite <- ES. destruct (flush_own ev [j] s) as [F1 F2]. cbn [fold_left] in F1, F2. rewrite F1, F2. intros E1 E2. apply H; auto. apply (flush_some ev [j] s); auto.
  - apply Some_inj in ES. rewrite <- ES. destruct (flush_own ev (stages (s_cells s)) s) as [-> ->]. intros E1 E2. apply H; auto. apply (flush_some ev _ s E2).
  - apply Some_inj in ES. rewrite <- ES. cbn. intros E1 E2. apply H; auto. destruct (s_cells s); cbn in *; auto. rewrite E2. apply orb_true_r.
  - destruct (_ && _); [|discriminate]. apply Some_inj in ES. rewrite <- ES. auto.
  - destruct (_ && _); [|discriminate]. apply Some_inj in ES. rewrite <- ES. auto.
  - apply Some_inj in ES. rewrite <- ES. cbn. intros _ E. destruct (s_own s) eqn:EO; [rewrite H; auto|]. rewrite E. apply orb_true_r.
  - destruct (s_own s); [discriminate|]. apply Some_inj in ES. rewrite <- ES. apply KU.
  - destruct (s_sched s) eqn:E; apply Some_inj in ES; rewrite <- ES; [apply KU|rewrite E; auto].
  - apply Some_inj in ES. rewrite <- ES. auto.
Qed.
(* An invariant of the described machine holds in every reachable state. *)
Lemma reach_inv : forall (P : sst -> Prop) (ok_op : lop A -> bool) n ev l0 ops l, n < 2 ^ 31 -> l_init n ev = Some l0 -> Forall fits ops -> forallb ok_op ops = true -> lrun l0 ops = Some l ->
  P (s_init n ev) -> (forall s o s', ok_op o = true -> sspec ev s o = Some s' -> P s -> P s') -> exists s, R ev l s /\ p_n (l_pipe l) = n /\ P s.
Proof.
  intros P ok_op n ev l0 ops l Hn H0 HF HO H HP HS. destruct (R_init n ev l0 Hn H0) as [HR En]. pose proof (R_run ev ops l0 _ HR HF) as K. rewrite H in K.
  destruct (srun ev (s_init n ev) ops) as [s|] eqn:ES; [|contradiction]. exists s. destruct K as [K1 K2]. split; auto. split; [congruence|].
  clear - ES HP HS HO. revert ES HP. generalize (s_init n ev). induction ops as [|o r IH]; intros t ES HP; [cbn in ES; injection ES as <-; auto|].
  cbn [forallb srun] in *. apply andb_prop in HO as [HO1 HO2]. destruct (sspec ev t o) as [t1|] eqn:E; [|discriminate]. apply (IH HO2 t1 ES). eapply HS; eauto.
Qed.
(** A self-updating pipeline that holds data, stalled or not, has its update pending. *)
Theorem C25_own_pending : forall n ev l0 ops l, n < 2 ^ 31 -> l_init n ev = Some l0 -> Forall fits ops -> lrun l0 ops = Some l -> l_own l = true ->
  (exists j a, j < n /\ read (l_pipe l) j = Some a) \/ (exists a, appended (l_pipe l) = Some a) -> l_sched l = true.
Proof.
  intros n ev l0 ops l Hn H0 HF H HO HD.
  destruct (reach_inv PENDS (fun _ => true) n ev l0 ops l Hn H0 HF) as (s & HR & En & HP); auto; [clear; induction ops; auto|intros X; discriminate|intros; eapply pends_step; eauto|].
  rewrite (R_sched _ _ _ HR). apply HP; [rewrite <- (R_own _ _ _ HR); auto|]. rewrite <- (R_v _ _ _ HR). apply existsb_exists. unfold view.
  destruct HD as [(j & a & Hj & E)|(a & E)]; exists (Some a); split; auto; [right|left; auto].
  apply in_map_iff. exists (N.to_nat j). rewrite N2Nat.id. split; auto. apply in_seq. lia.
Qed.

(* No handler is deactivated, by a call or by a suppressing stall. *)
Definition no_deact (o : lop A) : bool := match o with PDeactivate _ | PStall _ _ _ true => false | _ => true end.
Lemma act_step : forall ev s o s', no_deact o = true -> sspec ev s o = Some s' -> (forall j, s_act s j = ev j) -> forall j, s_act s' j = ev j.
Proof.
  intros ev s o s' HN ES H. assert (KW : forall k j, wake ev k (s_act s) j = ev j) by (intros; unfold wake; rewrite H; destruct (ev j), (_ <=? _); auto).
  assert (KF : forall js t, (forall j, s_act t j = ev j) -> forall j, s_act (fold_left (s_flush ev) js t) j = ev j).
  { induction js as [|i js IH]; intros t Ht; auto. cbn [fold_left]. apply IH. intros j. unfold s_flush. destruct (s_stall t) as [[[k c] lo]|]; [destruct (i =? N.of_nat k)|]; cbn; auto.
    unfold wake. rewrite Ht. destruct (ev j), (_ <=? _); auto. }
  assert (KU : forall t, (forall j, s_act t j = ev j) -> forall j, s_act (s_upd ev t) j = ev j).
  { intros t Ht j. unfold s_upd. destruct (s_stall t) as [[[k c] lo]|]; [destruct (c =? 1)|]; cbn; auto. unfold wake. rewrite Ht. destruct (ev j), (_ <=? _); auto. }
  destruct o as [a|j a|j|k c crush supp| |j| | |j|j| | | |]; cbn [sspec] in ES.
  - destruct (s_cells s) as [|[b|] q]; try discriminate. apply Some_inj in ES. rewrite <- ES. auto.
  - destruct (_ <? _); [|discriminate]. apply Some_inj in ES. rewrite <- ES. auto.
  - destruct (_ && _); [|discriminate]. apply Some_inj in ES. rewrite <- ES. auto.
  - destruct (_ && _); [|discriminate]. destruct (s_stall s); [discriminate|]. destruct (c =? 0); apply Some_inj in ES; rewrite <- ES; auto. destruct supp; [discriminate|]. cbn. intros j. rewrite H. apply andb_true_r.
  - destruct (s_stall s) as [[[k c] lo]|]; [|discriminate]. apply Some_inj in ES. rewrite <- ES. cbn. auto.
  - destruct (_ <? _); [|discriminate]. apply Some_inj in ES. rewrite <- ES. apply (KF [j] s); auto.
  - apply Some_inj in ES. rewrite <- ES. apply KF; auto.
  - apply Some_inj in ES. rewrite <- ES. auto.
  - destruct ((j <? size (s_cells s)) && ev j) eqn:E; [|discriminate]. apply andb_prop in E as [_ E]. apply Some_inj in ES. rewrite <- ES. cbn. intros i. unfold updb. destruct (N.eqb_spec i j) as [->|]; auto.
  - discriminate.
  - apply Some_inj in ES. rewrite <- ES. auto.
  - destruct (s_own s); [discriminate|]. apply Some_inj in ES. rewrite <- ES. apply KU; auto.
  - destruct (s_sched s); apply Some_inj in ES; rewrite <- ES; auto.
  - apply Some_inj in ES. rewrite <- ES. auto.
Qed.
(** Handlers. As long as no handler is deactivated, every update makes pending exactly the handlers of the stages that then hold data,
    stalled or not, lowest stage first. *)
Theorem C25_handlers : forall n ev l0 ops l l', n < 2 ^ 31 -> l_init n ev = Some l0 -> Forall fits ops -> forallb no_deact ops = true -> lrun l0 ops = Some l -> l_calls l = [] ->
  lstep l PUpdate = Some l' \/ (l_sched l = true /\ lstep l PFire = Some l') ->
  l_calls l' = filter (fun j => match read (l_pipe l') j with Some _ => ev j | None => false end) (map N.of_nat (seq 0 (N.to_nat n))).
Proof.
  intros n ev l0 ops l l' Hn H0 HF HN H HC HU.
  destruct (reach_inv (fun s => forall j, s_act s j = ev j) no_deact n ev l0 ops l Hn H0 HF) as (s & HR & En & HP); auto; [intros; eapply act_step; eauto|].
  assert (K : exists t, s_act t = s_act s /\ s_calls t = [] /\ R ev l' (s_upd ev t)).
  { rewrite (R_calls _ _ _ HR) in HC. destruct HU as [HU|[HS HU]].
    - pose proof (R_step ev l s PUpdate HR Logic.I) as K. rewrite HU in K. cbn [sspec] in K. destruct (s_own s); [contradiction|]. eauto.
    - pose proof (R_step ev l s PFire HR Logic.I) as K. rewrite HU in K. cbn [sspec] in K. rewrite (R_sched _ _ _ HR) in HS. rewrite HS in K. eexists. split; [|split; [|exact K]]; auto. }
  destruct K as (t & Ht & Hc & HR'). rewrite (R_calls _ _ _ HR'). destruct (upd_sched ev t) as (_ & -> & _). rewrite Hc, Ht. unfold pend. cbn [app existsb].
  assert (En' : p_n (l_pipe l') = n).
  { assert (SN : forall o, fits o -> lstep l o = Some l' -> p_n (l_pipe l') = n).
    { intros o Fo E. pose proof (R_run ev [o] l s HR (Forall_cons o Fo (Forall_nil _))) as X. cbn [lrun] in X. rewrite E in X. destruct (srun ev s [o]); [destruct X; congruence|contradiction]. }
    destruct HU as [HU|[_ HU]]; [apply (SN PUpdate)|apply (SN PFire)]; auto; exact Logic.I. }
  unfold stages. rewrite (R_size _ _ _ HR'), En'. apply filter_ext_in. intros j Hj. apply in_map_iff in Hj as (i & <- & Hi). apply in_seq in Hi.
  rewrite read_nth by (try apply HR'; lia). rewrite (R_v _ _ _ HR'). unfold cell. rewrite HP. destruct (nth _ _ None); cbn [ok andb negb]; [apply andb_true_r|auto].
Qed.

(* Calls that move data only forwards and reactivate nothing. *)
Definition plain_noact (o : lop A) : bool := plain_op o && match o with PActivate _ => false | _ => true end.
(** Suppressed handlers. After stall(k, c, false, true) with no handler pending, none of the handlers of the stages 0..k becomes pending in the next c updates. *)
Theorem C25_suppressed : forall n ev l0 ops0 l k c l1 ops l2 j, n < 2 ^ 31 -> l_init n ev = Some l0 -> Forall fits ops0 -> lrun l0 ops0 = Some l ->
  0 < c < 2 ^ 32 -> stall l k c false true = Some l1 -> l_calls l = [] -> forallb plain_noact ops = true -> lrun l1 ops = Some l2 -> N.of_nat (ups l1 ops) <= c ->
  j <= k -> ~ In j (l_calls l2).
Proof.
  intros n ev l0 ops0 l k c l1 ops l2 j Hn H0 HF0 H HC HST HCL HP HR2 HB Hjk.
  destruct (reach_R n ev l0 ops0 l Hn H0 HF0 H) as (s & HR & En). pose proof (R_step ev l s (PStall k c false true) HR ltac:(cbn; lia)) as K. cbn [lstep] in K. rewrite HST in K.
  destruct (sspec ev s (PStall k c false true)) as [s1|] eqn:ES; [|contradiction]. cbn [sspec] in ES.
  destruct ((k <? size (s_cells s)) && ok (cell (s_cells s) k)); [|discriminate].
  destruct (s_stall s) eqn:EST; [discriminate|]. destruct (N.eqb_spec c 0); [lia|]. apply Some_inj in ES.
  assert (HF : Forall fits ops). { apply Forall_forall. intros o Ho. rewrite forallb_forall in HP. specialize (HP o Ho). destruct o; cbn; auto; discriminate. }
  set (Q := fun (t : sst) (c' : N) => s_stall t = Some (N.to_nat k, c', 0%nat) /\ s_act t j = false /\ ~ In j (s_calls t)).
  assert (Q1 : Q s1 c). { rewrite <- ES. split; auto. cbn. split; [|rewrite <- (R_calls _ _ _ HR), HCL; auto]. unfold held. rewrite N2Nat.id. destruct (N.leb_spec (N.of_nat 0) j), (N.leb_spec j k); try lia. }
  assert (QU : forall t c', Q t c' -> 0 < c' -> ~ In j (s_calls (s_upd ev t)) /\ (c' <> 1 -> Q (s_upd ev t) (c' - 1))).
  { intros t c' (T1 & T2 & T3) Hc. assert (KN : ~ In j (s_calls (s_upd ev t))).
    { destruct (upd_sched ev t) as (_ & -> & _). unfold pend. intros HI. apply in_app_or in HI as [HI|HI]; [auto|]. apply filter_In in HI as [_ HI]. rewrite T2, andb_false_r in HI. discriminate. }
    split; auto. intros HN. split; [|split; auto]; unfold s_upd; rewrite T1; destruct (N.eqb_spec c' 1); try lia; auto. }
  assert (MAIN : forall ops l1 s1 c, Forall fits ops -> forallb plain_noact ops = true -> R ev l1 s1 -> Q s1 c -> 0 < c -> N.of_nat (ups l1 ops) <= c -> lrun l1 ops = Some l2 -> ~ In j (l_calls l2)).
  { clear - QU. induction ops as [|o r IH]; intros l1 s1 c HF HP HR HQ Hc HB H.
    - cbn in H. injection H as <-. rewrite (R_calls _ _ _ HR). apply HQ.
    - inversion HF; subst. cbn [forallb] in HP. apply andb_prop in HP as [HP1 HP2]. cbn [lrun ups] in *.
      pose proof (R_step ev l1 s1 o HR H2) as K. destruct (lstep l1 o) as [l'|] eqn:EL; [|discriminate]. destruct (sspec ev s1 o) as [s'|] eqn:ES; [|contradiction].
      destruct (upd1 l1 o) as [|u] eqn:EU.
      + apply (IH l' s' c); auto. destruct HQ as (T1 & T2 & T3). unfold Q. unfold plain_noact in HP1.
        destruct o as [a|i a|i|k' c' crush supp| |i| | |i|i| | | |]; try discriminate; cbn [sspec upd1] in *.
        * destruct (s_cells s1) as [|[b|] q]; try discriminate. apply Some_inj in ES. rewrite <- ES. auto.
        * apply Some_inj in ES. rewrite <- ES. auto.
        * destruct ((i <? size (s_cells s1)) && ev i); [|discriminate]. apply Some_inj in ES. rewrite <- ES. cbn. split; auto. split; auto. unfold updb. destruct (j =? i); auto.
        * apply Some_inj in ES. rewrite <- ES. auto.
        * rewrite (R_sched _ _ _ HR) in EU. destruct (s_sched s1); [discriminate|]. apply Some_inj in ES. rewrite <- ES. auto.
        * apply Some_inj in ES. rewrite <- ES. cbn. auto.
      + assert (KT : exists t, Q t c /\ s' = s_upd ev t).
        { destruct o; try discriminate; cbn [sspec] in ES.
          - destruct (s_own s1); [discriminate|]. apply Some_inj in ES. eauto.
          - cbn [upd1] in EU. rewrite (R_sched _ _ _ HR) in EU. destruct (s_sched s1); [|discriminate]. apply Some_inj in ES. eexists. split; [|symmetry; exact ES]. exact HQ. }
        destruct KT as (t & Qt & ->). destruct (QU t c Qt Hc) as [U1 U2]. destruct (N.eq_dec c 1) as [->|Hc1].
        * assert (HZ : ups l' r = 0%nat) by lia. clear U2. revert K HZ U1. generalize (s_upd ev t). clear - HP2 H3 H.
          revert l' H. induction r as [|o r IH]; intros l' H s K HZ U1; [cbn in H; injection H as <-; rewrite (R_calls _ _ _ K); auto|].
          inversion H3; subst. cbn [forallb] in HP2. apply andb_prop in HP2 as [HP1 HP2]. cbn [lrun ups] in *.
          pose proof (R_step ev l' s o K H2) as K'. destruct (lstep l' o) as [l''|] eqn:EL; [|discriminate]. destruct (sspec ev s o) as [s'|] eqn:ES; [|contradiction].
          apply (IH HP2 H4 l'' H s' K'); [lia|]. assert (EU : upd1 l' o = 0%nat) by lia. unfold plain_noact in HP1.
          destruct o as [a|i a|i|k' c' crush supp| |i| | |i|i| | | |]; try discriminate; cbn [sspec upd1] in *.
          -- destruct (s_cells s) as [|[b|] q]; try discriminate. apply Some_inj in ES. rewrite <- ES. auto.
          -- apply Some_inj in ES. rewrite <- ES. auto.
          -- destruct ((i <? size (s_cells s)) && ev i); [|discriminate]. apply Some_inj in ES. rewrite <- ES. auto.
          -- apply Some_inj in ES. rewrite <- ES. auto.
          -- rewrite (R_sched _ _ _ K) in EU. destruct (s_sched s); [discriminate|]. apply Some_inj in ES. rewrite <- ES. auto.
          -- apply Some_inj in ES. rewrite <- ES. cbn. auto.
        * apply (IH l' (s_upd ev t) (c - 1)); auto; [lia|]. assert (u = 0%nat) by (destruct o; cbn in EU; try discriminate; [lia|destruct (l_sched l1); lia]). lia. }
  apply (MAIN ops l1 s1 c); auto. lia.
Qed.
End SPEC.
Print Assumptions C25_refines.
Print Assumptions C25_held.
Print Assumptions C25_ahead.
Print Assumptions C25_order.
Print Assumptions C25_own_pending.
Print Assumptions C25_handlers.
Print Assumptions C25_suppressed.

(* Concrete cases: four stages, handlers everywhere. *)
Definition all_ev (j : N) : bool := j <? 4.
Definition ex_do (ops : list (lop N)) : option (pline N) := match l_init 4 all_ev with Some l => lrun l ops | None => None end.
Definition ex_get (o : option (pline N)) (d : list (option N)) : list (option N) := match o with Some l => appended (l_pipe l) :: map (read (l_pipe l)) [0; 1; 2; 3] | None => d end.
Definition ex_fill : list (lop N) := [PAppend 1; PUpdate; PAppend 2; PUpdate; PUpdate; PAppend 3; PUpdate].

(** A stall without crush_bubbles does not hold everything upstream: the datum in the append slot still enters stage 0 if that is empty. *)
Theorem C25_upstream_held_refuted : exists (l0 l l1 l2 : pline N) ops, l_init 4 (fun _ => false) = Some l0 /\ lrun l0 ops = Some l /\ stall l 1 5 false false = Some l1 /\ lstep l1 PUpdate = Some l2 /\
  appended (l_pipe l1) = Some 2 /\ appended (l_pipe l2) = None /\ read (l_pipe l2) 0 = Some 2.
Proof.
  do 4 eexists. exists [PAppend 1; PUpdate; PUpdate; PAppend 2]. split; [vm_compute; reflexivity|]. split; [vm_compute; reflexivity|]. split; [vm_compute; reflexivity|].
  split; [vm_compute; reflexivity|]. split; [vm_compute; reflexivity|]. split; vm_compute; reflexivity.
Qed.
Print Assumptions C25_upstream_held_refuted.
(** The end of a stall activates the handlers of the stages up to the stalled one, also those that deactivateEventAtStage had switched off before. *)
Theorem C25_deactivated_stays_refuted : exists (l0 l : pline N) ops, l_init 4 all_ev = Some l0 /\ lrun l0 ops = Some l /\
  ops = [PDeactivate 0; PAppend 1; PUpdate; PUpdate; PStall 1 1 false false; PUpdate; PCalls; PAppend 2; PUpdate] /\ l_calls l = [0; 2].
Proof.
  do 2 eexists. exists [PDeactivate 0; PAppend 1; PUpdate; PUpdate; PStall 1 1 false false; PUpdate; PCalls; PAppend 2; PUpdate].
  split; [vm_compute; reflexivity|]. split; [vm_compute; reflexivity|]. split; vm_compute; reflexivity.
Qed.
Print Assumptions C25_deactivated_stays_refuted.
(** flushStage does not cancel the pending handlers of a stage whose handlers a stall has just suppressed: they run on a flushed stage. *)
Theorem C25_flush_cancels_refuted : exists (l0 l l1 : pline N) ops, l_init 4 all_ev = Some l0 /\ lrun l0 ops = Some l /\ flush_stage l 0 = Some l1 /\
  l_calls l = [0] /\ read (l_pipe l1) 0 = None /\ l_calls l1 = [0].
Proof.
  do 3 eexists. exists [PAppend 1; PUpdate; PStall 0 2 false true]. split; [vm_compute; reflexivity|]. split; [vm_compute; reflexivity|]. split; [vm_compute; reflexivity|].
  split; [vm_compute; reflexivity|]. split; vm_compute; reflexivity.
Qed.
Print Assumptions C25_flush_cancels_refuted.
(** With crush_bubbles, isStalledOrStallingAtStage reports a stage as stalled although its datum moves with the next update. *)
Theorem C25_stalled_at_refuted : exists (l0 l l1 : pline N) ops, l_init 4 all_ev = Some l0 /\ lrun l0 ops = Some l /\ stalled_at l 0 = true /\ read (l_pipe l) 0 = Some 2 /\
  lstep l PUpdate = Some l1 /\ read (l_pipe l1) 1 = Some 2.
Proof.
  do 3 eexists. exists [PAppend 1; PUpdate; PUpdate; PAppend 2; PUpdate; PStall 2 3 true false]. split; [vm_compute; reflexivity|]. split; [vm_compute; reflexivity|]. split; [vm_compute; reflexivity|].
  split; [vm_compute; reflexivity|]. split; vm_compute; reflexivity.
Qed.
Print Assumptions C25_stalled_at_refuted.
(** The stall of a self-updating pipeline that runs empty (its stalled stage invalidated) never ends by itself: no update is pending, however many cycles pass. *)
Theorem C25_stall_ends_refuted : exists (l0 l : pline N) ops, l_init 4 all_ev = Some l0 /\ lrun l0 ops = Some l /\
  ops = [POwn; PAppend 1; PFire; PStall 0 2 false false; PInvalidate 0; PFire] /\ forall m, lrun l (repeat PFire m) = Some l /\ stalled l = true.
Proof.
  set (ops := [POwn; PAppend 1; PFire; PStall 0 2 false false; PInvalidate 0; PFire]).
  assert (E : match l_init 4 all_ev with Some l0 => match lrun l0 ops with Some l => l_sched l = false /\ stalled l = true | None => False end | None => False end) by (vm_compute; auto).
  destruct (l_init 4 all_ev) as [l0|]; [|contradiction]. destruct (lrun l0 ops) as [l|] eqn:E1; [|contradiction]. destruct E as [E2 E3].
  exists l0, l, ops. split; [reflexivity|]. split; [exact E1|]. split; [reflexivity|]. intros m. split; [|exact E3].
  induction m; [reflexivity|]. cbn [repeat lrun lstep]. rewrite E2. exact IHm.
Qed.
Print Assumptions C25_stall_ends_refuted.

Example C25_ex_fill : ex_get (ex_do ex_fill) [] = [None; Some 3; None; Some 2; Some 1].
Proof. vm_compute; reflexivity. Qed.
Definition ex_bind (o : option (pline N)) (f : pline N -> Prop) : Prop := match o with Some l => f l | None => False end.
(* Stalling stage 2 for two updates: 1 leaves, 3 waits at stage 0, 2 at stage 2; with the third update both move. *)
Example C25_held_ex : ex_bind (ex_do ex_fill) (fun l => ex_bind (stall l 2 2 false false) (fun l1 => ex_bind (lrun l1 [PUpdate; PUpdate; PAppend 4; PUpdate]) (fun l2 =>
  read (l_pipe l) 0 = Some 3 /\ to_close l false 0 2 = 0%nat /\ ups l1 [PUpdate; PUpdate; PAppend 4; PUpdate] = 3%nat /\
  ex_get (Some l2) [] = [None; Some 4; Some 3; None; Some 2]))).
Proof. vm_compute. auto. Qed.
Example C25_crush_ex : ex_bind (ex_do ex_fill) (fun l => ex_bind (stall l 2 2 true false) (fun l1 => ex_bind (lrun l1 [PUpdate; PUpdate]) (fun l2 =>
  to_close l true 0 2 = 1%nat /\ ex_get (Some l2) [] = [None; None; Some 3; Some 2; None]))).
Proof. vm_compute. auto. Qed.
Example C25_ahead_ex : ex_bind (ex_do ex_fill) (fun l => ex_bind (stall l 0 2 false false) (fun l1 => ex_bind (lrun l1 [PUpdate]) (fun l2 =>
  read (l_pipe l) 2 = Some 2 /\ read (l_pipe l2) 3 = Some 2))).
Proof. vm_compute. auto. Qed.
Example C25_order_ex : ex_bind (l_init 4 all_ev) (fun l0 => left_out l0 (ex_fill ++ [PStall 2 1 true false; PUpdate; PUpdate; PUpdate]) = [2; 1] /\
  appended_by (ex_fill ++ [PStall 2 1 true false; PUpdate; PUpdate; PUpdate]) = [3; 2; 1] /\ forallb keeps ex_fill = true).
Proof. vm_compute. auto. Qed.
Example C25_own_ex : ex_bind (ex_do [POwn; PAppend 1; PFire; PStall 0 2 false false; PFire]) (fun l => l_own l = true /\ read (l_pipe l) 0 = Some 1 /\ l_sched l = true).
Proof. vm_compute. auto. Qed.
Example C25_handlers_ex : ex_bind (ex_do (ex_fill ++ [PStall 2 2 false false; PCalls])) (fun l => ex_bind (lstep l PUpdate) (fun l' => l_calls l = [] /\ l_calls l' = [0; 2] /\
  forallb no_deact (ex_fill ++ [PStall 2 2 false false; PCalls]) = true)).
Proof. vm_compute. auto. Qed.
Example C25_suppressed_ex : ex_bind (ex_do (ex_fill ++ [PCalls])) (fun l => ex_bind (stall l 2 2 false true) (fun l1 => ex_bind (lrun l1 [PUpdate; PUpdate]) (fun l2 =>
  l_calls l2 = [] /\ forallb plain_noact [PUpdate (A := N); PUpdate] = true /\ ups l1 [PUpdate; PUpdate] = 2%nat))).
Proof. vm_compute. auto. Qed.
Example C25_refines_ex : match srun all_ev (s_init 4 all_ev) (ex_fill ++ [PStall 2 2 true true; PUpdate; PFlush 2; PUpdate]) with
  Some s => (s_cells s, s_calls s) | None => ([], []) end = ([None; None; None; Some 3; None], [0; 1; 2; 3]).
Proof. vm_compute. auto. Qed.
