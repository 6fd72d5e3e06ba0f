(** C39: checkpoint storage gives back what was put in. *)
From Coq Require Import List NArith Arith Bool Lia.
From Verif Require Import LayoutModel LayoutProofs ArchDataModel ArchDataProofs ArchDataProps StorageModel StorageProofs StorageArch.
Import ListNotations.
Open Scope N_scope.

(** A client writing records ArchData by ArchData, as ArchData::save does, and one reading them back: per ArchData it knows
    the line size only. *)
Fixpoint write_recs {T} (st : storage T) (s : T) (l : list rec) : outcome T :=
  match l with
  | [] => st_end st s
  | r :: q => obind (st_begin st s (fst r)) (fun s1 => obind (st_write st s1 (snd r)) (fun s2 => write_recs st s2 q))
  end.
Fixpoint write_segs {T} (st : storage T) (s : T) (l : list (list rec)) : outcome T :=
  match l with [] => Done s | x :: q => obind (write_recs st s x) (fun s1 => write_segs st s1 q) end.
Fixpoint read_recs {T} (st : storage T) (fuel : nat) (size : N) (s : T) : outcome (list rec * T) :=
  match fuel with
  | O => TooDeep
  | S f => obind (st_next st s) (fun '(i, s1) => if i =? bad_idx then Done ([], s1)
      else obind (st_copy st s1 size) (fun '(d, s2) => obind (read_recs st f size s2) (fun '(q, s3) => Done ((i, d) :: q, s3))))
  end.
Fixpoint read_segs {T} (st : storage T) (fuel : nat) (sizes : list N) (s : T) : outcome (list (list rec) * T) :=
  match sizes with
  | [] => Done ([], s)
  | n :: q => obind (read_recs st fuel n s) (fun '(x, s1) => obind (read_segs st fuel q s1) (fun '(r, s2) => Done (x :: r, s2)))
  end.
(** Lines of one ArchData: all of its line size, indices valid, none twice. *)
Definition recs_ok (size : N) (l : list rec) : Prop :=
  size < 2 ^ 32 /\ NoDup (map fst l) /\ forall i d, In (i, d) l -> i < 2 ^ 64 - 1 /\ length d = N.to_nat size.

Section Generic.
  Context {T : Type} (st : storage T) (lim : list (list rec) -> Prop) (W : T -> list (list rec) -> list rec -> Prop)
    (R : T -> list (list rec) -> list (list rec) -> Prop).
  Hypothesis Lw : laws st lim W R.

  Lemma write_recs_ok : forall l size s segs cur, W s segs cur -> recs_ok size (cur ++ l) ->
    exists s', write_recs st s l = Done s' /\ W s' (segs ++ [cur ++ l]) [].
  Proof.
    induction l as [|[i d] l IH]; intros size s segs cur HW HO; cbn [write_recs].
    - rewrite app_nil_r. apply (w_end _ _ _ _ Lw _ _ _ HW).
    - pose proof HO as [O0 [O1 O2]]. destruct (O2 i d) as [B1 B2]; [apply in_or_app; right; left; reflexivity|].
      destruct (w_rec _ _ _ _ Lw s segs cur (i, d) HW) as [s1 [s2 [E1 [E2 E3]]]].
      { unfold writable. cbn [fst snd]. split; [exact B1|]. split; [rewrite B2, N2Nat.id; exact O0|].
        intros q Hq E. rewrite map_app in O1. cbn [map fst] in O1. apply NoDup_remove_2 in O1. apply O1. apply in_or_app. left.
        rewrite <- E. apply in_map. exact Hq. }
      cbn [fst snd] in *. rewrite E1. cbn [obind]. rewrite E2. cbn [obind].
      replace (cur ++ (i, d) :: l) with ((cur ++ [(i, d)]) ++ l) in * by (rewrite <- app_assoc; reflexivity).
      exact (IH size s2 segs _ E3 HO).
  Qed.
  Lemma write_segs_ok : forall l sizes s segs, W s segs [] -> Forall2 recs_ok sizes l ->
    exists s', write_segs st s l = Done s' /\ W s' (segs ++ l) [].
  Proof.
    induction l as [|x l IH]; intros sizes s segs HW HO; cbn [write_segs].
    - exists s. rewrite app_nil_r. auto.
    - inversion HO as [|n ? sz ? H1 H2]; subst. destruct (write_recs_ok x n s segs [] HW H1) as [s1 [E1 E2]]. rewrite E1. cbn [obind].
      destruct (IH sz s1 _ E2 H2) as [s2 [F1 F2]]. exists s2. split; [exact F1|]. cbn [app] in F2. rewrite <- app_assoc in F2. exact F2.
  Qed.
  Lemma read_recs_ok : forall l size fuel s alls rest, R s alls (l :: rest) -> recs_ok size l -> (length l < fuel)%nat ->
    exists s', read_recs st fuel size s = Done (l, s') /\ R s' alls rest.
  Proof.
    induction l as [|[i d] l IH]; intros size fuel s alls rest HR HO HF; (destruct fuel as [|fuel]; [cbn in HF; lia|]); cbn [read_recs].
    - destruct (r_end _ _ _ _ Lw _ _ _ HR) as [s' [N1 N2]]. rewrite N1. cbn [obind]. change (bad_idx =? bad_idx) with true. cbn match. eauto.
    - destruct HO as [O0 [O1 O2]]. destruct (O2 i d (or_introl eq_refl)) as [B1 B2].
      destruct (r_rec _ _ _ _ Lw s alls (i, d) l rest HR) as [s1 [s2 [N1 [N2 N3]]]]; cbn [fst snd] in *.
      { exact B1. } { rewrite B2, N2Nat.id. exact O0. }
      rewrite N1. cbn [obind]. destruct (N.eqb_spec i bad_idx) as [E|_]; [subst i; vm_compute in B1; discriminate|].
      rewrite B2, N2Nat.id in N2. rewrite N2. cbn [obind].
      destruct (IH size fuel s2 alls rest N3) as [s3 [F1 F2]].
      { split; [exact O0|]. inversion O1; subst. split; [assumption|]. intros. apply O2. right. assumption. }
      { cbn [length] in HF. lia. }
      rewrite F1. cbn [obind]. eauto.
  Qed.
  Lemma read_segs_ok : forall l sizes fuel s alls, R s alls l -> Forall2 recs_ok sizes l -> (forall x, In x l -> (length x < fuel)%nat) ->
    exists s', read_segs st fuel sizes s = Done (l, s') /\ R s' alls [].
  Proof.
    induction l as [|x l IH]; intros sizes fuel s alls HR HO HF; inversion HO as [|n ? sz ? H1 H2]; subst; cbn [read_segs].
    - eauto.
    - destruct (read_recs_ok x n fuel s alls l HR H1) as [s1 [E1 E2]]; [apply HF; left; reflexivity|].
      rewrite E1. cbn [obind]. destruct (IH sz fuel s1 alls E2 H2) as [s2 [F1 F2]]; [intros; apply HF; right; assumption|].
      rewrite F1. cbn [obind]. eauto.
  Qed.
  (** Write, read, read again. *)
  Lemma round_trip : forall l sizes fuel, Forall2 recs_ok sizes l -> lim l -> (forall x, In x l -> (length x < fuel)%nat) ->
    exists s s1 s2, write_segs st (st_new st) l = Done s /\ read_segs st fuel sizes (st_prepare st s) = Done (l, s1) /\
      read_segs st fuel sizes (st_prepare st s1) = Done (l, s2).
  Proof.
    intros l sizes fuel HO HL HF. destruct (write_segs_ok l sizes _ _ (w_new _ _ _ _ Lw) HO) as [s [E1 E2]]. cbn [app] in E2.
    pose proof (w_prepare _ _ _ _ Lw s l E2 HL) as R0. destruct (read_segs_ok l sizes fuel _ l R0 HO HF) as [s1 [F1 F2]].
    pose proof (r_prepare _ _ _ _ Lw _ _ _ F2) as R1. destruct (read_segs_ok l sizes fuel _ l R1 HO HF) as [s2 [G1 G2]].
    exists s, s1, s2. auto.
  Qed.

  (** ArchDatas. *)
  Variable sh : overshift.
  (** A save followed by a restore of everything into ArchDatas of the same shape. *)
  Lemma save_dats_ok : forall all cs l fs s segs, Forall (wfc sh) cs -> Forall2 (fun ca f => AI (fst ca) (snd ca) f) (combine cs l) fs ->
    length cs = length l -> W s segs [] ->
    exists l' s' new, save_dats st all s l = Done (l', s') /\ W s' (segs ++ new) [] /\ length l' = length l /\
      Forall2 (fun ca f => AI (fst ca) (snd ca) f) (combine cs l') fs /\ new = map (fun a => saved all (a_lines a)) l /\
      Forall2 (fun c r => Forall (rec_ok c) r) cs new /\
      (all = true -> Forall2 (fun cr f => forall b, put_recs (fst cr) (cfill (fst cr)) (snd cr) b = f b) (combine cs new) fs).
  Proof.
    intros all. induction cs as [|c cs IH]; intros l fs s segs HW HA HLn Hs; destruct l as [|a l]; try discriminate; cbn [combine] in HA;
      inversion HA as [|? f ? fs' H1 H2]; subst; cbn [save_dats].
    - exists [], s, []. rewrite app_nil_r. repeat split; auto; constructor.
    - inversion HW as [|? ? W1 W2]; subst. cbn [fst snd] in H1.
      destruct (ad_save_ok sh c W1 st lim W R Lw all a f s segs H1 Hs) as [a' [s1 [E1 [E2 [E3 [E4 [E5 E6]]]]]]].
      rewrite E1. cbn [obind]. injection HLn as HLn.
      destruct (IH l fs' s1 _ W2 H2 HLn E2) as [l' [s2 [new [F1 [F2 [F3 [F4 [F5 [F6 F7]]]]]]]]]. rewrite F1. cbn [obind].
      exists (a' :: l'), s2, (saved all (a_lines a) :: new). split; [reflexivity|].
      split; [rewrite <- app_assoc in F2; exact F2|]. split; [cbn [length]; congruence|].
      split; [cbn [combine]; constructor; auto|]. split; [cbn [map]; congruence|]. split; [constructor; auto|].
      intros Q. cbn [combine]. constructor; [cbn [fst snd]; auto|auto].
  Qed.
  Lemma restore_dats_ok : forall all cs l fs recs s alls rest fuel, Forall (wfc sh) cs ->
    Forall2 (fun ca f => AI (fst ca) (snd ca) f) (combine cs l) fs -> length cs = length l ->
    R s alls (recs ++ rest) -> Forall2 (fun c r => Forall (rec_ok c) r) cs recs -> (forall x, In x recs -> (length x < fuel)%nat) ->
    exists l' s' fs', restore_dats st sh fuel all s l = Done (l', s') /\ R s' alls rest /\ length l' = length l /\
      Forall2 (fun ca f => AI (fst ca) (snd ca) f) (combine cs l') fs' /\
      Forall2 (fun cr ff => forall b, put_recs (fst cr) (if all then cfill (fst cr) else fst ff) (snd cr) b = snd ff b)
        (combine cs recs) (combine fs fs') /\ length fs' = length fs.
  Proof.
    intros all. induction cs as [|c cs IH]; intros l fs recs s alls rest fuel HW HA HLn HR HO HF; destruct l as [|a l]; try discriminate;
      cbn [combine] in HA; inversion HA as [|? f ? fs0 H1 H2]; subst; inversion HO as [|? r ? recs' O1 O2]; subst; cbn [restore_dats].
    - exists [], s, []. cbn [combine]. repeat split; auto; constructor.
    - inversion HW as [|? ? W1 W2]; subst. cbn [fst snd] in H1. injection HLn as HLn. cbn [app] in HR.
      assert (E : exists a' s', (if all then ad_restore_all st sh fuel s a else ad_restore st sh fuel s a) = Done (a', s') /\
        R s' alls (recs' ++ rest) /\ AI c a' (put_recs c (if all then cfill c else f) r)).
      { assert (FL : (length r < fuel)%nat) by (apply HF; left; reflexivity). destruct all.
        - apply (ad_restore_all_ok sh c W1 st lim W R Lw r fuel s alls _ a f HR O1 H1 FL).
        - apply (ad_restore_ok sh c W1 st lim W R Lw r fuel s alls _ a f HR O1 H1 FL). }
      destruct E as [a' [s1 [E1 [E2 E3]]]]. rewrite E1. cbn [obind].
      destruct (IH l fs0 recs' s1 alls rest fuel W2 H2 HLn E2 O2) as [l' [s2 [fs' [F1 [F2 [F3 [F4 [F5 F6]]]]]]]];
        [intros; apply HF; right; assumption|].
      rewrite F1. cbn [obind]. eexists (a' :: l'), s2, (_ :: fs'). split; [reflexivity|]. split; [exact F2|].
      split; [cbn [length]; congruence|]. split; [cbn [combine]; constructor; [exact E3|exact F4]|].
      split; [|cbn [length]; congruence]. cbn [combine]. constructor; [|exact F5]. reflexivity.
  Qed.
End Generic.

(** What a client did with an ArchData. *)
Definition made (sh : overshift) (co : cfg * list mop) (a : adata) : Prop :=
  let c := fst co in c_total c < 2 ^ 64 /\ c_fill c < 2 ^ 64 /\ sh_ok sh (c_fsz c) (c_fill c) /\ Forall op_small (snd co) /\
  exists a0, mem_make (c_k c) (c_total c) (c_fill c) (c_fsz c) (c_free c) = Done a0 /\ mrun sh a0 (snd co) = Some a.
(** Two ArchDatas of the same shape hold the same bytes. *)
Definition same_reads (sh : overshift) (c : cfg) (a b : adata) : Prop :=
  forall addr size, addr + size < 2 ^ 64 -> legal (c_k c) (c_total c) addr size = true ->
    mem_read sh a addr size = mem_read sh b addr size /\ exists d, mem_read sh a addr size = Done d.

Lemma made_AI : forall sh co a, made sh co a -> wfc sh (fst co) /\ exists f, AI (fst co) a f.
Proof.
  intros sh [c ops] a [HT [HF [HS [HO [a0 [HM HR]]]]]]. cbn [fst snd] in *.
  destruct (make_facts _ _ _ _ _ _ HM) as [Hk [HM' [HZ HF8]]].
  assert (HF' : c_fill c < 2 ^ (8 * N.of_nat (c_fsz c))).
  { destruct (Nat.eq_dec (c_fsz c) 8) as [E|N8]; [rewrite E; exact HF|apply HF8; exact N8]. }
  assert (Wf : wfc sh c) by (constructor; assumption). split; [exact Wf|].
  pose proof (make_all c a0 HM) as A0. revert a0 A0 HR HO HM. generalize (cfill c) as f.
  induction ops as [|o ops IH]; intros f a0 A0 HR HO HM; cbn [mrun] in HR; [injection HR as <-; eauto|].
  apply Forall_cons_iff in HO. destruct HO as [O1 O2].
  assert (X : exists a1 f1, AI c a1 f1 /\ mrun sh a1 ops = Some a).
  { destruct o as [addr buf|addr size|]; cbn [op_small] in O1.
    - pose proof (write_all sh c Wf a0 f f addr buf A0 (fun b Hb => False_ind _ (Hb eq_refl)) O1) as Q.
      destruct (mem_write sh a0 addr buf) as [a1 r]. destruct Q as [Q1 [Q2 _]].
      destruct (legal _ _ _ _); subst r; eauto.
    - destruct (mem_read sh a0 addr size); try discriminate; eauto.
    - destruct (clean_all sh c Wf a0 f A0) as [a1 [C1 C2]]. rewrite C1 in HR. eauto. }
  destruct X as [a1 [f1 [X1 X2]]]. clear IH HM. revert a1 f1 X1 X2 O2. clear - Wf.
  induction ops as [|o ops IH]; intros a0 f A0 HR HO; cbn [mrun] in HR; [injection HR as <-; eauto|].
  apply Forall_cons_iff in HO. destruct HO as [O1 O2].
  destruct o as [addr buf|addr size|]; cbn [op_small] in O1.
  - pose proof (write_all sh c Wf a0 f f addr buf A0 (fun b Hb => False_ind _ (Hb eq_refl)) O1) as Q.
    destruct (mem_write sh a0 addr buf) as [a1 r]. destruct Q as [Q1 [Q2 _]].
    destruct (legal _ _ _ _); subst r; eauto.
  - destruct (mem_read sh a0 addr size); try discriminate; eauto.
  - destruct (clean_all sh c Wf a0 f A0) as [a1 [C1 C2]]. rewrite C1 in HR. eauto.
Qed.
Lemma AI_same : forall sh c a b f g, wfc sh c -> AI c a f -> AI c b g -> (forall x, f x = g x) -> same_reads sh c a b.
Proof.
  intros sh c a b f g Wf HA HB E addr size H1 H2. rewrite (read_all sh c Wf a f addr size HA H1 H2).
  rewrite (read_all sh c Wf b g addr size HB H1 H2). split; [|eauto]. f_equal. apply map_ext. auto.
Qed.
(** One ArchData of a round trip: its shape, what happened to it before the save, and what happened to the other ArchData
    it is restored into. *)
Record job := mkJob { j_cfg : cfg; j_ops1 : list mop; j_ops2 : list mop }.
Lemma F2_length : forall (A B : Type) (P : A -> B -> Prop) l m, Forall2 P l m -> length l = length m.
Proof. intros A B P l m H. induction H; cbn; congruence. Qed.
(** The number of lines held. *)
Definition lines_held (l : list adata) : nat := fold_right (fun a n => (length (a_lines a) + n)%nat) 0%nat l.

Section Dats.
  Context {T : Type} (st : storage T) (lim : list (list rec) -> Prop) (W : T -> list (list rec) -> list rec -> Prop)
    (R : T -> list (list rec) -> list (list rec) -> Prop).
  Hypothesis Lw : laws st lim W R.
  Lemma dats_round_trip : forall sh (js : list job) d1 d2 fuel,
    Forall2 (fun j a => made sh (j_cfg j, j_ops1 j) a) js d1 -> Forall2 (fun j a => made sh (j_cfg j, j_ops2 j) a) js d2 ->
    lim (map (fun a => saved true (a_lines a)) d1) -> (lines_held d1 < fuel)%nat ->
    exists d1' s d2' s', save_dats st true (st_new st) d1 = Done (d1', s) /\
      restore_dats st sh fuel true (st_prepare st s) d2 = Done (d2', s') /\
      Forall2 (fun ja b => same_reads sh (j_cfg (fst ja)) (snd ja) b) (combine js d1) d1' /\
      Forall2 (fun ja b => same_reads sh (j_cfg (fst ja)) (snd ja) b) (combine js d1) d2'.
  Proof.
    intros sh js d1 d2 fuel H1 H2 HLim HFu.
    assert (WF : Forall (wfc sh) (map j_cfg js)).
    { clear - H1. induction H1 as [|co a cos d H H1 IH]; cbn [map]; constructor; [apply (made_AI _ _ _ H)|exact IH]. }
    assert (A1 : exists fs, Forall2 (fun ca f => AI (fst ca) (snd ca) f) (combine (map j_cfg js) d1) fs).
    { clear - H1. induction H1 as [|co a cos d H H1 [fs IH]]; cbn [map combine]; [exists []; constructor|].
      destruct (made_AI _ _ _ H) as [_ [f Hf]]. exists (f :: fs). constructor; assumption. }
    assert (A2 : exists fs, Forall2 (fun ca f => AI (fst ca) (snd ca) f) (combine (map j_cfg js) d2) fs).
    { clear - H2. induction H2 as [|co a cos d H H2 [fs IH]]; cbn [map combine]; [exists []; constructor|].
      destruct (made_AI _ _ _ H) as [_ [f Hf]]. exists (f :: fs). constructor; assumption. }
    destruct A1 as [fs A1]. destruct A2 as [gs A2].
    assert (L1 : length (map j_cfg js) = length d1) by (rewrite map_length; eapply F2_length; exact H1).
    assert (L2 : length (map j_cfg js) = length d2) by (rewrite map_length; eapply F2_length; exact H2).
    destruct (save_dats_ok st lim W R Lw sh true _ d1 fs _ [] WF A1 L1 (w_new _ _ _ _ Lw))
      as [d1' [s [new [E1 [E2 [E3 [E4 [E5 [E6 E7]]]]]]]]]. cbn [app] in E2. specialize (E7 eq_refl).
    rewrite <- E5 in HLim. pose proof (w_prepare _ _ _ _ Lw s new E2 HLim) as R0. rewrite <- (app_nil_r new) in R0 at 2.
    assert (FU : forall x, In x new -> (length x < fuel)%nat).
    { subst new. intros x Hx. apply in_map_iff in Hx. destruct Hx as [a [<- Ha]]. clear - HFu Ha. unfold saved. rewrite map_length.
      assert (Q : (length (filter (fun p : N * line => true || l_dirty (snd p)) (a_lines a)) <= length (a_lines a))%nat).
      { generalize (fun p : N * line => true || l_dirty (snd p)). intros g. induction (a_lines a) as [|p r IH]; cbn [filter length]; [lia|].
        destruct (g p); cbn [length]; lia. }
      assert (Q2 : (length (a_lines a) <= lines_held d1)%nat).
      { clear Q HFu. induction d1 as [|z d1 IH]; [destruct Ha|]. cbn [lines_held fold_right]. destruct Ha as [->|Ha]; [lia|].
        specialize (IH Ha). unfold lines_held in IH. lia. }
      lia. }
    destruct (restore_dats_ok st lim W R Lw sh true _ d2 gs new _ new [] fuel WF A2 L2 R0 E6 FU)
      as [d2' [s' [gs' [F1 [F2 [F3 [F4 [F5 F6]]]]]]]].
    exists d1', s, d2', s'. split; [exact E1|]. split; [exact F1|].
    split.
    - clear - WF A1 E4 E3 L1 H1. assert (L3 : length d1' = length js) by (rewrite map_length in L1; congruence).
      clear E3 L1. revert d1' fs WF A1 E4 L3. induction H1 as [|j a js d H H1 IH]; intros d1' fs WF A1 E4 L3;
        destruct d1' as [|a' d1']; try discriminate; cbn [map combine] in *; [constructor|].
      inversion WF as [|? ? W1 W2]; subst. inversion A1 as [|? f ? fs' B1 B2]; subst. inversion E4 as [|? ? ? ? C1 C2]; subst.
      injection L3 as L3. constructor; [|apply (IH d1' fs'); assumption]. cbn [fst snd] in *.
      apply (AI_same sh _ a a' f f W1 B1 C1). reflexivity.
    - clear - WF A1 F4 F3 F5 F6 E7 E6 L2 H1. assert (L3 : length d2' = length js) by (rewrite map_length in L2; congruence).
      clear F3 L2. revert d2' fs gs gs' new WF A1 F4 F5 F6 E7 E6 L3.
      induction H1 as [|j a js d H H1 IH]; intros d2' fs gs gs' new WF A1 F4 F5 F6 E7 E6 L3;
        destruct d2' as [|a' d2']; try discriminate; cbn [map combine] in *; [constructor|].
      inversion WF as [|? ? W1 W2]; subst. inversion A1 as [|? f ? fs' B1 B2]; subst. inversion F4 as [|? g' ? gs2 C1 C2]; subst.
      inversion E6 as [|? r ? new' D1 D2]; subst. destruct gs as [|g gs]; [discriminate|]. cbn [combine] in *.
      inversion F5 as [|? ? ? ? G1 G2]; subst. inversion E7 as [|? ? ? ? I1 I2]; subst.
      injection L3 as L3. injection F6 as F6. constructor; [|apply (IH d2' fs' gs gs2 new'); assumption]. cbn [fst snd] in *.
      apply (AI_same sh _ a a' f g' W1 B1 C1). intros x. rewrite <- I1, <- G1. reflexivity.
  Qed.
End Dats.

(** In both storage classes the records come back exactly, in order and ArchData by ArchData, as often as the storage is
    read. The vector class counts records in 32 bits. *)
Theorem C39_vector_records : forall l sizes fuel, Forall2 recs_ok sizes l ->
  N.of_nat (length (concat l) + length l) < 2 ^ 32 -> (forall x, In x l -> (length x < fuel)%nat) ->
  exists s s1 s2, write_segs vector_storage v_new l = Done s /\ read_segs vector_storage fuel sizes (v_prepare s) = Done (l, s1) /\
    read_segs vector_storage fuel sizes (v_prepare s1) = Done (l, s2).
Proof.
  intros l sizes fuel HO HL HF. apply (round_trip vector_storage v_lim vW vR vector_laws l sizes fuel HO); [|exact HF].
  unfold v_lim. replace (length (vflat l)) with (length (concat l) + length l)%nat; [exact HL|].
  clear. unfold vflat. induction l as [|x l IH]; [reflexivity|]. cbn [map concat length]. rewrite !app_length, map_length, <- IH. cbn [length]. lia.
Qed.
Print Assumptions C39_vector_records.
Theorem C39_stream_records : forall l sizes fuel, Forall2 recs_ok sizes l -> (forall x, In x l -> (length x < fuel)%nat) ->
  exists s s1 s2, write_segs stream_storage s_new l = Done s /\ read_segs stream_storage fuel sizes (s_prepare s) = Done (l, s1) /\
    read_segs stream_storage fuel sizes (s_prepare s1) = Done (l, s2).
Proof.
  intros l sizes fuel HO HF. exact (round_trip stream_storage _ sW sR stream_laws l sizes fuel HO Logic.I HF).
Qed.
Print Assumptions C39_stream_records.
(** Two ArchDatas with different line sizes, an empty one between them; bytes that look like control characters. *)
Definition ex_recs : list (list rec) := [[(7, [76; 69; 32; 10]); (0, [1; 2; 3; 4])]; []; [(7, [69; 76])]].
Example C39_records_ex : Forall2 recs_ok [4; 16; 2] ex_recs /\
  N.of_nat (length (concat ex_recs) + length ex_recs) < 2 ^ 32 /\ (forall x, In x ex_recs -> (length x < 3)%nat) /\
  (exists s s', write_segs vector_storage v_new ex_recs = Done s /\ read_segs vector_storage 3 [4; 16; 2] (v_prepare s) = Done (ex_recs, s')) /\
  (exists s s', write_segs stream_storage s_new ex_recs = Done s /\ read_segs stream_storage 3 [4; 16; 2] (s_prepare s) = Done (ex_recs, s')).
Proof.
  assert (F : Forall2 recs_ok [4; 16; 2] ex_recs).
  { assert (Q : forall size l, size < 2 ^ 32 -> NoDup (map fst l) ->
      forallb (fun r => (fst r <? 2 ^ 64 - 1) && Nat.eqb (length (snd r)) (N.to_nat size)) l = true -> recs_ok size l).
    { intros size l H1 H2 H3. split; [exact H1|]. split; [exact H2|]. intros i d H. rewrite forallb_forall in H3. specialize (H3 _ H).
      apply andb_prop in H3. destruct H3 as [H3 H4]. apply N.ltb_lt in H3. apply Nat.eqb_eq in H4. auto. }
    constructor; [|constructor; [|constructor; [|constructor]]]; apply Q; try (vm_compute; reflexivity).
    - constructor; [cbn; intros [H|[]]; discriminate|]. constructor; [intros []|constructor].
    - constructor.
    - constructor; [intros []|constructor]. }
  split; [exact F|]. split; [vm_compute; reflexivity|].
  split; [cbn; intros x H; repeat destruct H as [<-|H]; cbn; try lia; destruct H|].
  split; eexists _, _; split; vm_compute; reflexivity.
Qed.

(** ArchDatas of any shapes, after any writes, reads and cleans: a snapshot of them read back into ArchDatas of the same
    shapes, whatever those held, makes every read return what it returned when the snapshot was taken. Taking the snapshot
    changes no byte. "Partial": the bounds of C37. *)
Theorem C39_snapshot_vector_partial : forall sh (js : list job) d1 d2 fuel,
  Forall2 (fun j a => made sh (j_cfg j, j_ops1 j) a) js d1 -> Forall2 (fun j a => made sh (j_cfg j, j_ops2 j) a) js d2 ->
  N.of_nat (lines_held d1 + length d1) < 2 ^ 32 -> (lines_held d1 < fuel)%nat ->
  exists d1' s d2' s', save_dats vector_storage true v_new d1 = Done (d1', s) /\
    restore_dats vector_storage sh fuel true (v_prepare s) d2 = Done (d2', s') /\
    Forall2 (fun ja b => same_reads sh (j_cfg (fst ja)) (snd ja) b) (combine js d1) d1' /\
    Forall2 (fun ja b => same_reads sh (j_cfg (fst ja)) (snd ja) b) (combine js d1) d2'.
Proof.
  intros sh js d1 d2 fuel H1 H2 HL HF. apply (dats_round_trip vector_storage v_lim vW vR vector_laws sh js d1 d2 fuel H1 H2); [|exact HF].
  unfold v_lim. replace (length (vflat (map (fun a => saved true (a_lines a)) d1))) with (lines_held d1 + length d1)%nat; [exact HL|].
  clear. unfold vflat. induction d1 as [|a d IH]; [reflexivity|]. cbn [map concat lines_held fold_right length].
  rewrite app_length, <- IH, app_length, map_length. cbn [length]. unfold saved. rewrite map_length. cbn [orb].
  assert (Q : forall l : list (N * line), filter (fun _ => true) l = l) by (induction l as [|p r I]; cbn; congruence).
  rewrite Q. unfold lines_held. lia.
Qed.
Print Assumptions C39_snapshot_vector_partial.
Theorem C39_snapshot_stream_partial : forall sh (js : list job) d1 d2 fuel,
  Forall2 (fun j a => made sh (j_cfg j, j_ops1 j) a) js d1 -> Forall2 (fun j a => made sh (j_cfg j, j_ops2 j) a) js d2 ->
  (lines_held d1 < fuel)%nat ->
  exists d1' s d2' s', save_dats stream_storage true s_new d1 = Done (d1', s) /\
    restore_dats stream_storage sh fuel true (s_prepare s) d2 = Done (d2', s') /\
    Forall2 (fun ja b => same_reads sh (j_cfg (fst ja)) (snd ja) b) (combine js d1) d1' /\
    Forall2 (fun ja b => same_reads sh (j_cfg (fst ja)) (snd ja) b) (combine js d1) d2'.
Proof.
  intros sh js d1 d2 fuel H1 H2 HF. exact (dats_round_trip stream_storage _ sW sR stream_laws sh js d1 d2 fuel H1 H2 Logic.I HF).
Qed.
Print Assumptions C39_snapshot_stream_partial.
(** Two ArchDatas, one that frees lines and one that does not; lines allocated out of order; the target holds other lines. *)
Definition ex_jobs : list job :=
  [mkJob (mkCfg 2 16 204 1 true) [MWrite 9 [1; 2]; MWrite 0 [3]] [MWrite 4 [8; 8]; MWrite 9 [7]];
   mkJob (mkCfg 3 32 43981 2 false) [MWrite 24 [5]] [MWrite 0 [6]; MWrite 25 [6]]].
Example C39_snapshot_ex :
  exists d1 d2, Forall2 (fun j a => made (fun _ => None) (j_cfg j, j_ops1 j) a) ex_jobs d1 /\
    Forall2 (fun j a => made (fun _ => None) (j_cfg j, j_ops2 j) a) ex_jobs d2 /\ lines_held d1 = 3%nat /\
    exists d1' s d2' s', save_dats vector_storage true v_new d1 = Done (d1', s) /\
      restore_dats vector_storage (fun _ => None) 4 true (v_prepare s) d2 = Done (d2', s') /\
      map (fun a => mem_read (fun _ => None) a 8 4) d2 = [Done [204; 7; 204; 204]; Done [205; 171; 205; 171]] /\
      map (fun a => mem_read (fun _ => None) a 8 4) d2' = [Done [204; 1; 2; 204]; Done [205; 171; 205; 171]] /\
      map (fun a => mem_read (fun _ => None) a 0 1) d2' = [Done [3]; Done [205]].
Proof.
  assert (M : forall c ops a0 a, c_total c < 2 ^ 64 -> c_fill c < 2 ^ 64 -> (c_fsz c <= 2)%nat -> Forall op_small ops ->
    mem_make (c_k c) (c_total c) (c_fill c) (c_fsz c) (c_free c) = Done a0 -> mrun (fun _ => None) a0 ops = Some a ->
    made (fun _ => None) (c, ops) a).
  { intros c ops a0 a H1 H2 H3 H4 H5 H6. split; [exact H1|]. split; [exact H2|]. split; [left; exact H3|]. split; [exact H4|]. eauto. }
  eexists [_; _], [_; _]. split; [|split; [|split]].
  - constructor; [|constructor; [|constructor]]; 
      (eapply M; [vm_compute; reflexivity|vm_compute; reflexivity|cbn; lia|repeat (constructor; [vm_compute; reflexivity|]); constructor|
        vm_compute; reflexivity|vm_compute; reflexivity]).
  - constructor; [|constructor; [|constructor]]; 
      (eapply M; [vm_compute; reflexivity|vm_compute; reflexivity|cbn; lia|repeat (constructor; [vm_compute; reflexivity|]); constructor|
        vm_compute; reflexivity|vm_compute; reflexivity]).
  - vm_compute. reflexivity.
  - eexists _, _, _, _. split; [vm_compute; reflexivity|]. split; [vm_compute; reflexivity|]. vm_compute. auto.
Qed.

(** Reading one ArchData more than was written is not noticed by the vector class: it looks like an empty one. The stream
    class throws. *)
Theorem C39_read_past_end_refuted : exists l s s1 s2, write_segs vector_storage v_new l = Done s /\
  read_segs vector_storage 5 [4] (v_prepare s) = Done (l, s1) /\ v_good s1 = true /\
  read_segs vector_storage 5 [4; 4] (v_prepare s) = Done (l ++ [[]], s2) /\
  (exists t, write_segs stream_storage s_new l = Done t /\ read_segs stream_storage 5 [4; 4] (s_prepare t) = Refused).
Proof.
  exists [[(3, [1; 2; 3; 4])]]. eexists _, _, _. split; [vm_compute; reflexivity|]. split; [vm_compute; reflexivity|].
  split; [vm_compute; reflexivity|]. split; [vm_compute; reflexivity|]. eexists. split; vm_compute; reflexivity.
Qed.
Print Assumptions C39_read_past_end_refuted.
(** The vector class takes a line's bytes in one piece only; the stream class joins pieces. *)
Theorem C39_line_in_pieces_refuted : exists s1 s2, v_begin v_new 5 = Done s1 /\ v_write s1 [1; 2] = Done s2 /\ v_write s2 [3; 4] = Asserted /\
  exists t1 t2 t3 t4 t5, s_begin s_new 5 = Done t1 /\ s_write t1 [1; 2] = Done t2 /\ s_write t2 [3; 4] = Done t3 /\ s_end t3 = Done t4 /\
    read_segs stream_storage 5 [4] (s_prepare t4) = Done ([[(5, [1; 2; 3; 4])]], t5).
Proof.
  eexists _, _. split; [vm_compute; reflexivity|]. split; [vm_compute; reflexivity|]. split; [vm_compute; reflexivity|].
  eexists _, _, _, _, _. repeat (split; [vm_compute; reflexivity|]). vm_compute. reflexivity.
Qed.
Print Assumptions C39_line_in_pieces_refuted.
