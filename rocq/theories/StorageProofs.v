(** Both storage classes give back the records that were put in. *)
From Coq Require Import List NArith Arith Bool Lia.
From Verif Require Import LayoutModel ArchDataModel ArchDataProofs DataViewModel DataViewProps StorageModel.
Import ListNotations.
Open Scope N_scope.

Notation rec := (N * list N)%type.
(** A record that can be written after the records [cur] of the same ArchData. *)
Definition writable (cur : list rec) (r : rec) : Prop :=
  fst r < bad_idx /\ N.of_nat (length (snd r)) < 2 ^ 32 /\ (forall q, In q cur -> fst q <> fst r).

Record laws {T} (st : storage T) (lim : list (list rec) -> Prop) (W : T -> list (list rec) -> list rec -> Prop)
    (R : T -> list (list rec) -> list (list rec) -> Prop) : Prop := mkLaws {
  w_new : W (st_new st) [] [];
  w_rec : forall s segs cur r, W s segs cur -> writable cur r -> exists s1 s2,
     st_begin st s (fst r) = Done s1 /\ st_write st s1 (snd r) = Done s2 /\ W s2 segs (cur ++ [r]);
  w_end : forall s segs cur, W s segs cur -> exists s', st_end st s = Done s' /\ W s' (segs ++ [cur]) [];
  w_good : forall s segs cur, W s segs cur -> st_good st s = true;
  w_prepare : forall s segs, W s segs [] -> lim segs -> R (st_prepare st s) segs segs;
  r_good : forall s all rem, R s all rem -> st_good st s = true;
  r_prepare : forall s all rem, R s all rem -> R (st_prepare st s) all all;
  r_end : forall s all rest, R s all ([] :: rest) -> exists s', st_next st s = Done (bad_idx, s') /\ R s' all rest;
  r_rec : forall s all r seg rest, R s all ((r :: seg) :: rest) -> fst r < bad_idx -> N.of_nat (length (snd r)) < 2 ^ 32 ->
     exists s1 s2, st_next st s = Done (fst r, s1) /\ st_copy st s1 (N.of_nat (length (snd r))) = Done (snd r, s2) /\
       R s2 all (seg :: rest) }.

(** VectorStorage. *)
Definition segof (r : rec) : vseg := mkSeg (fst r) (snd r).
Definition vflat (segs : list (list rec)) : list vseg := concat (map (fun l => map segof l ++ [mkSeg bad_idx []]) segs).
Definition v_lim (segs : list (list rec)) : Prop := N.of_nat (length (vflat segs)) < 2 ^ 32.
Definition vW (s : vstore) (segs : list (list rec)) (cur : list rec) : Prop :=
  v_data s = vflat segs ++ map segof cur /\ v_rd s = 0.
Definition vR (s : vstore) (all rem : list (list rec)) : Prop :=
  v_lim all /\ v_data s = vflat all /\
  exists pre, vflat all = pre ++ vflat rem /\ v_rd s = N.of_nat (length pre) /\ v_cur s = Some (pred (length pre)).
(** Inside an ArchData the position is after some records already. *)

Lemma vflat_app : forall a b, vflat (a ++ b) = vflat a ++ vflat b.
Proof. intros. unfold vflat. rewrite map_app, concat_app. reflexivity. Qed.
Lemma vflat_one : forall l, vflat [l] = map segof l ++ [mkSeg bad_idx []].
Proof. intros. unfold vflat. cbn [map concat]. apply app_nil_r. Qed.
Lemma vflat_end : forall segs, segs <> [] -> exists l, vflat segs = l ++ [mkSeg bad_idx []].
Proof.
  intros segs H. destruct (exists_last H) as [p [x ->]]. rewrite vflat_app, vflat_one, app_assoc. eauto.
Qed.

Lemma vector_laws : laws vector_storage v_lim vW vR.
Proof.
  constructor.
  - split; reflexivity.
  - intros s segs cur [i d] [H1 H2] [H3 [H4 H5]]. cbn [fst snd] in *. cbn [vector_storage st_begin st_write].
    unfold v_begin. destruct (N.eqb_spec i bad_idx); [lia|]. eexists _, _. split; [reflexivity|].
    unfold v_write. cbn [v_data v_next v_rd v_cur]. rewrite H1.
    assert (Q : negb (Nat.eqb (length (vflat segs ++ map segof cur)) 0) &&
                (g_idx (last (vflat segs ++ map segof cur) (mkSeg 0 [])) =? i) = false).
    { destruct cur as [|c0 cr] using rev_ind; [|clear IHcr].
      - cbn [map]. rewrite app_nil_r. destruct segs as [|sg sr]; [reflexivity|].
        destruct (vflat_end (sg :: sr)) as [l E]; [discriminate|]. rewrite E, last_last. cbn [g_idx].
        destruct (N.eqb_spec bad_idx i); [congruence|]. apply andb_false_r.
      - rewrite map_app. cbn [map]. rewrite app_assoc, last_last. cbn [segof g_idx].
        destruct (N.eqb_spec (fst c0) i) as [E|E]; [|apply andb_false_r].
        exfalso. apply (H5 c0); [apply in_or_app; right; left; reflexivity|exact E]. }
    rewrite Q. destruct (N.eqb_spec i bad_idx); [lia|]. split; [reflexivity|].
    split; cbn [v_data v_rd]; [|exact H2]. rewrite map_app, app_assoc. reflexivity.
  - intros s segs cur [H1 H2]. eexists. split; [reflexivity|]. split; cbn [v_data v_rd]; [|exact H2].
    rewrite H1, vflat_app, vflat_one. cbn [map]. rewrite app_nil_r, app_assoc. reflexivity.
  - intros s segs cur [H1 H2]. cbn [vector_storage st_good]. unfold v_good. rewrite H2. apply N.leb_le. lia.
  - intros s segs [H1 H2] HL. cbn [vector_storage st_prepare]. unfold v_prepare, vR. cbn [v_data v_rd v_cur].
    rewrite H1. cbn [map]. rewrite app_nil_r. split; [exact HL|]. split; [reflexivity|]. exists []. auto.
  - intros s all rem [HL [H1 [pre [H2 [H3 H4]]]]]. cbn [vector_storage st_good]. unfold v_good. rewrite H1, H3, H2, app_length.
    apply N.leb_le. lia.
  - intros s all rem [HL [H1 _]]. cbn [vector_storage st_prepare]. unfold v_prepare, vR. cbn [v_data v_rd v_cur].
    split; [exact HL|]. split; [exact H1|]. exists []. auto.
  - intros s all rest [HL [H1 [pre [H2 [H3 H4]]]]]. cbn [vector_storage st_next].
    assert (V : vflat ([] :: rest) = mkSeg bad_idx [] :: vflat rest) by reflexivity.
    unfold v_next_line. rewrite H1, H3, H4. unfold v_lim in HL. change (2 ^ 32) with 4294967296 in *.
    rewrite V in H2. rewrite H2. rewrite H2 in HL. rewrite app_length in *. cbn [length] in *.
    destruct (N.eqb_spec (N.of_nat (length pre)) (N.of_nat (length pre + S (length (vflat rest))))); [lia|].
    destruct (N.ltb_spec (N.of_nat (length pre + S (length (vflat rest)))) (N.of_nat (length pre))); [lia|].
    assert (C : (if N.of_nat (length pre) =? 0 then pred (length pre) else S (pred (length pre))) = length pre).
    { destruct (N.eqb_spec (N.of_nat (length pre)) 0); lia. }
    rewrite C. rewrite nth_error_app2 by lia. rewrite Nat.sub_diag. cbn [nth_error g_idx].
    eexists. split; [reflexivity|]. unfold vR. cbn [v_data v_rd v_cur]. split; [|split; [symmetry; exact H2|]].
    + unfold v_lim. rewrite H2, app_length. exact HL.
    + exists (pre ++ [mkSeg bad_idx []]). rewrite <- app_assoc. split; [exact H2|]. rewrite app_length. cbn [length].
      rewrite N.mod_small by lia. split; [lia|]. f_equal. lia.
  - intros s all [i d] seg rest [HL [H1 [pre [H2 [H3 H4]]]]] HI HD. cbn [fst snd] in *. cbn [vector_storage st_next st_copy].
    assert (V : vflat (((i, d) :: seg) :: rest) = mkSeg i d :: vflat (seg :: rest)) by reflexivity.
    unfold v_next_line. rewrite H1, H3, H4. unfold v_lim in HL. change (2 ^ 32) with 4294967296 in *.
    rewrite V in H2. rewrite H2. rewrite H2 in HL. rewrite app_length in *. cbn [length] in *.
    destruct (N.eqb_spec (N.of_nat (length pre)) (N.of_nat (length pre + S (length (vflat (seg :: rest)))))); [lia|].
    destruct (N.ltb_spec (N.of_nat (length pre + S (length (vflat (seg :: rest))))) (N.of_nat (length pre))); [lia|].
    assert (C : (if N.of_nat (length pre) =? 0 then pred (length pre) else S (pred (length pre))) = length pre).
    { destruct (N.eqb_spec (N.of_nat (length pre)) 0); lia. }
    rewrite C. rewrite nth_error_app2 by lia. rewrite Nat.sub_diag. cbn [nth_error g_idx].
    eexists _, _. split; [reflexivity|]. unfold v_copy. cbn [v_cur v_data].
    rewrite nth_error_app2 by lia. rewrite Nat.sub_diag. cbn [nth_error g_idx g_data].
    destruct (N.eqb_spec i bad_idx); [lia|]. change (2 ^ 32) with 4294967296. rewrite N.eqb_refl.
    rewrite (N.mod_small (N.of_nat (length d))) by exact HD. rewrite Nat2N.id, firstn_all. split; [reflexivity|].
    unfold vR. cbn [v_data v_rd v_cur]. split; [|split; [symmetry; exact H2|]].
    + unfold v_lim. rewrite H2, app_length. exact HL.
    + exists (pre ++ [mkSeg i d]). rewrite <- app_assoc. split; [exact H2|]. rewrite app_length. cbn [length].
      rewrite N.mod_small by lia. split; [lia|]. f_equal. lia.
Qed.

(** StringStreamStorage. *)
Definition enc_rec (r : rec) : list N := 76 :: le_bytes 8 (fst r) ++ snd r.
Definition enc_seg (l : list rec) : list N := concat (map enc_rec l) ++ [69].
Definition enc (segs : list (list rec)) : list N := concat (map enc_seg segs).
Definition sW (s : sstore) (segs : list (list rec)) (cur : list rec) : Prop :=
  s_buf s = enc segs ++ concat (map enc_rec cur).
Definition sR (s : sstore) (all rem : list (list rec)) : Prop :=
  s_buf s = enc all /\ exists pre, enc all = pre ++ enc rem /\ s_pos s = length pre.

Lemma take_app : forall pre l rest, s_take (mkSS (pre ++ l ++ rest) (length pre)) (length l) =
  Done (l, mkSS (pre ++ l ++ rest) (length pre + length l)).
Proof.
  intros. unfold s_take. cbn [s_buf s_pos]. rewrite !app_length.
  destruct (Nat.leb_spec (length pre + length l) (length pre + (length l + length rest))); [|lia].
  rewrite skipn_app, skipn_all, Nat.sub_diag. cbn [skipn app]. rewrite firstn_app, firstn_all, Nat.sub_diag. cbn [firstn].
  rewrite app_nil_r. reflexivity.
Qed.
Lemma skip_app : forall (pre l : list N), skipn (length pre) (pre ++ l) = l.
Proof. intros. rewrite skipn_app, skipn_all, Nat.sub_diag. reflexivity. Qed.

Lemma stream_laws : laws stream_storage (fun _ => True) sW sR.
Proof.
  constructor.
  - reflexivity.
  - intros s segs cur [i d] H [H3 [H4 H5]]. cbn [fst snd] in *. eexists _, _. split; [reflexivity|]. split; [reflexivity|].
    unfold sW in *. cbn [s_buf]. rewrite H, map_app, concat_app. cbn [map concat enc_rec fst snd]. rewrite app_nil_r.
    rewrite <- !app_assoc. reflexivity.
  - intros s segs cur H. eexists. split; [reflexivity|]. unfold sW in *. cbn [s_buf map concat]. rewrite H, app_nil_r.
    unfold enc. rewrite map_app, concat_app. cbn [map concat]. rewrite app_nil_r. unfold enc_seg at 3. rewrite app_assoc. reflexivity.
  - reflexivity.
  - intros s segs H _. unfold sW in H. cbn [map concat] in H. rewrite app_nil_r in H.
    split; [exact H|]. exists []. auto.
  - reflexivity.
  - intros s all rem [H _]. split; [exact H|]. exists []. auto.
  - intros s all rest [H1 [pre [H2 H3]]]. destruct s as [buf pos]. cbn [s_buf s_pos] in *. subst buf pos.
    assert (V : enc ([] :: rest) = [69] ++ enc rest) by reflexivity. rewrite V in H2.
    cbn [stream_storage st_next]. unfold s_next_line. cbn [s_buf s_pos].
    cbv zeta. rewrite H2. rewrite skip_app. cbn [app spaces is_space]. change (is_space 69) with false. cbn match.
    rewrite Nat.add_0_r. change (69 :: enc rest) with ([69] ++ enc rest). change 1%nat with (length [69]).
    rewrite take_app. cbn [obind nth]. change (69 =? 76) with false. change (69 =? 69) with true. cbn match.
    eexists. split; [reflexivity|]. split; cbn [s_buf s_pos]; [symmetry; exact H2|]. exists (pre ++ [69]).
    rewrite <- app_assoc, app_length. auto.
  - intros s all [i d] seg rest [H1 [pre [H2 H3]]] HI HD. cbn [fst snd] in *.
    destruct s as [buf pos]. cbn [s_buf s_pos] in *. subst buf pos.
    assert (V : enc (((i, d) :: seg) :: rest) = [76] ++ le_bytes 8 i ++ d ++ enc (seg :: rest)).
    { unfold enc. cbn [map concat]. unfold enc_seg. cbn [map concat]. unfold enc_rec at 1. cbn [fst snd].
      rewrite <- !app_assoc. cbn [app]. rewrite <- !app_assoc. reflexivity. }
    rewrite V in H2. cbn [stream_storage st_next st_copy]. unfold s_next_line. cbn [s_buf s_pos].
    cbv zeta. rewrite H2. rewrite skip_app. cbn [app spaces]. change (is_space 76) with false. cbn match.
    rewrite Nat.add_0_r. change (76 :: le_bytes 8 i ++ d ++ enc (seg :: rest)) with ([76] ++ le_bytes 8 i ++ d ++ enc (seg :: rest)).
    change (s_take ?x 1) with (s_take x (length [76])). rewrite take_app. cbn [obind nth]. change (76 =? 76) with true. cbn match.
    replace (pre ++ [76] ++ le_bytes 8 i ++ d ++ enc (seg :: rest)) with ((pre ++ [76]) ++ le_bytes 8 i ++ d ++ enc (seg :: rest))
      by (rewrite <- app_assoc; reflexivity).
    rewrite <- app_length.
    change (s_take ?x 8) with (s_take x (length (le_bytes 8 i))).
    rewrite take_app. cbn [obind]. rewrite le_val_bytes.
    change (2 ^ (8 * N.of_nat 8)) with 18446744073709551616. rewrite N.mod_small by (unfold bad_idx in HI; lia).
    eexists _, _. split; [reflexivity|]. unfold s_copy. rewrite N.mod_small by exact HD. rewrite Nat2N.id.
    replace ((pre ++ [76]) ++ le_bytes 8 i ++ d ++ enc (seg :: rest)) with (((pre ++ [76]) ++ le_bytes 8 i) ++ d ++ enc (seg :: rest))
      by (rewrite <- app_assoc; reflexivity).
    rewrite <- (app_length (pre ++ [76])).
    rewrite take_app. split; [reflexivity|].
    split; cbn [s_buf s_pos]; [rewrite H2, <- !app_assoc; reflexivity|].
    exists (((pre ++ [76]) ++ le_bytes 8 i) ++ d). split; [rewrite H2, <- !app_assoc; reflexivity|].
    rewrite (app_length _ d). reflexivity.
Qed.
