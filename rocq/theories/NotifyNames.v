(** Reading lists of names. *)
From Coq Require Import Bool String Ascii Arith List Lia.
From Verif Require Import NotifyModel.
Import ListNotations.
Open Scope string_scope.
Open Scope nat_scope.

(** ** What a list of names means *)

(** [P] holds of every character. *)
Fixpoint each (P : ascii -> Prop) (s : string) : Prop :=
  match s with EmptyString => True | String c r => P c /\ each P r end.

(** A space or a tab. *)
Definition white (c : ascii) : Prop := c = " "%char \/ c = ascii_of_nat 9.

(** Neither space, tab nor comma. *)
Definition solid (c : ascii) : Prop := ~ white c /\ c <> ","%char.

(** A field is one name, with white space around it. *)
Definition holds_name (field name : string) : Prop :=
  exists a b, field = a ++ name ++ b /\ each white a /\ each white b /\
              each solid name /\ name <> "".

(** The names that a list of fields stands for: one for every field that is
    not white, and the empty name if the last field is white. *)
Inductive reads : list string -> list string -> Prop :=
| reads_blank : forall f, each white f -> reads [f] [""]
| reads_last : forall f t, holds_name f t -> reads [f] [t]
| reads_skip : forall f g fs ts, each white f -> reads (g :: fs) ts ->
                 reads (f :: g :: fs) ts
| reads_more : forall f g fs t ts, holds_name f t -> reads (g :: fs) ts ->
                 reads (f :: g :: fs) (t :: ts).

(** The fields of a text: what stands between its commas. *)
Definition fields (s : string) (fs : list string) : Prop :=
  fs <> [] /\ Forall (each (fun c => c <> ","%char)) fs /\ s = String.concat "," fs.

(** ** Proofs *)

Lemma app_assoc_s : forall a b c : string, (a ++ b) ++ c = a ++ b ++ c.
Proof. induction a as [|x a IH]; cbn; intros; [auto|now rewrite IH]. Qed.

Lemma app_nil_s : forall a : string, a ++ "" = a.
Proof. induction a as [|x a IH]; cbn; [auto|now rewrite IH]. Qed.

Lemma app_length_s : forall a b : string,
  String.length (a ++ b) = String.length a + String.length b.
Proof. induction a as [|x a IH]; cbn; intros; [auto|now rewrite IH]. Qed.

Lemma each_app : forall P a b, each P (a ++ b) <-> each P a /\ each P b.
Proof. intros P. induction a as [|x a IH]; cbn; intros b; [tauto|rewrite IH; tauto]. Qed.

Lemma each_impl : forall (P Q : ascii -> Prop) s, (forall c, P c -> Q c) ->
  each P s -> each Q s.
Proof. intros P Q s H. induction s as [|c s IH]; cbn; intuition. Qed.

Lemma blankc_white : forall c, blankc c = true <-> white c.
Proof.
  intros c. unfold blankc, white. rewrite orb_true_iff, !Ascii.eqb_eq. tauto.
Qed.

Lemma sepc_solid : forall c, sepc c = false <-> solid c.
Proof.
  intros c. unfold sepc, solid, white. rewrite !orb_false_iff, !Ascii.eqb_neq. tauto.
Qed.

Lemma sepc_sep : forall c, sepc c = true <-> white c \/ c = ","%char.
Proof.
  intros c. unfold sepc, white. rewrite !orb_true_iff, !Ascii.eqb_eq. tauto.
Qed.

(** The first character, if any, does not satisfy [f]. *)
Definition stops (f : ascii -> bool) (s : string) : Prop :=
  match s with EmptyString => True | String c _ => f c = false end.

Lemma cut_app : forall f a s, each (fun c => f c = true) a -> stops f s ->
  cut f (a ++ s) = (a, s).
Proof.
  intros f a s A T. induction a as [|c a IH]; cbn in *.
  - destruct s as [|c s]; cbn in *; auto. now rewrite T.
  - destruct A as [A1 A2]. rewrite A1, IH; auto.
Qed.

Lemma cut_split : forall f s, exists a b, s = a ++ b /\
  each (fun c => f c = true) a /\ stops f b /\ cut f s = (a, b).
Proof.
  intros f. induction s as [|c s IH]; cbn.
  - exists "", "". cbn. auto.
  - destruct (f c) eqn:F.
    + destruct IH as (a & b & -> & A & B & ->). exists (String c a), b. cbn. auto.
    + exists "", (String c s). cbn. auto.
Qed.

Lemma seps_cut : forall lead s, each (fun c => sepc c = true) lead -> stops sepc s ->
  snd (cut sepc (lead ++ s)) = s.
Proof. intros. now rewrite cut_app. Qed.

Lemma white_sep : forall s, each white s -> each (fun c => sepc c = true) s.
Proof. intros s. apply each_impl. intros c W. apply sepc_sep. auto. Qed.

Lemma white_blank : forall s, each white s -> each (fun c => blankc c = true) s.
Proof. intros s. apply each_impl. intros c W. now apply blankc_white. Qed.

Lemma solid_neg : forall s, each solid s -> each (fun c => negb (sepc c) = true) s.
Proof.
  intros s. apply each_impl. intros c W. apply sepc_solid in W. now rewrite W.
Qed.

Lemma cut_all : forall f s, each (fun c => f c = true) s -> snd (cut f s) = "".
Proof.
  intros f s E. rewrite <- (app_nil_s s). rewrite cut_app; auto. cbn. auto.
Qed.

(** One round on a text that starts with a name. *)
Lemma round : forall fuel lead t b rest,
  each (fun c => sepc c = true) lead -> each solid t -> t <> "" ->
  each white b -> match rest with String c _ => c = ","%char | _ => True end ->
  parse_names (S fuel) (lead ++ t ++ b ++ rest) =
  match rest with
  | EmptyString => Some [t]
  | _ => option_map (cons t) (parse_names fuel rest)
  end.
Proof.
  intros fuel lead t b rest L T N B R. cbn [parse_names].
  assert (S1 : stops sepc (t ++ b ++ rest)).
  { destruct t as [|c t]; [congruence|]. cbn in *. now apply sepc_solid. }
  rewrite seps_cut by auto.
  assert (S2 : stops (fun c => negb (sepc c)) (b ++ rest)).
  { destruct b as [|c b]; cbn in *.
    - destruct rest as [|c r]; cbn; auto. subst c. reflexivity.
    - destruct B as [B _]. assert (X : sepc c = true) by (apply sepc_sep; auto).
      now rewrite X. }
  destruct (t ++ b ++ rest) as [|c r] eqn:E.
  { destruct t; [congruence|discriminate]. }
  rewrite <- E, cut_app by (auto using solid_neg).
  assert (S3 : stops blankc rest).
  { destruct rest as [|c' r']; cbn; auto. subst c'. reflexivity. }
  rewrite cut_app by (auto using white_blank). cbn [snd].
  destruct rest as [|c' r']; auto. subst c'. reflexivity.
Qed.

Lemma concat_cons : forall f g fs,
  String.concat "," (f :: g :: fs) = f ++ "," ++ String.concat "," (g :: fs).
Proof. reflexivity. Qed.

Lemma reads_parse : forall fs ts, reads fs ts -> forall lead fuel,
  each (fun c => sepc c = true) lead ->
  String.length (lead ++ String.concat "," fs) < fuel ->
  parse_names fuel (lead ++ String.concat "," fs) = Some ts.
Proof.
  intros fs ts R. induction R as [f W|f t (a & b & -> & A & B & T & N)|f g fs ts W R IH
    |f g fs t ts (a & b & -> & A & B & T & N) R IH]; intros lead fuel L Fu;
    (destruct fuel as [|fuel]; [lia|]).
  - cbn [parse_names String.concat]. rewrite cut_all; auto.
    apply each_app. auto using white_sep.
  - cbn [String.concat]. rewrite <- app_assoc_s.
    rewrite <- (app_nil_s b), round; auto.
    apply each_app. auto using white_sep.
  - rewrite concat_cons in *. rewrite <- !app_assoc_s in *.
    apply IH; auto. rewrite !each_app. cbn. repeat split; auto using white_sep.
  - rewrite concat_cons in *.
    replace (lead ++ (a ++ t ++ b) ++ "," ++ String.concat "," (g :: fs))
      with ((lead ++ a) ++ t ++ b ++ ("," ++ String.concat "," (g :: fs)))
      in * by now rewrite !app_assoc_s.
    assert (LA : each (fun c => sepc c = true) (lead ++ a))
      by (apply each_app; auto using white_sep).
    rewrite (round fuel (lead ++ a) t b ("," ++ String.concat "," (g :: fs)) LA T N B eq_refl).
    change ("," ++ String.concat "," (g :: fs)) with
      (String "," (String.concat "," (g :: fs))).
    cbv iota.
    change (String "," (String.concat "," (g :: fs))) with
      ("," ++ String.concat "," (g :: fs)).
    rewrite IH; auto.
    + cbn. auto.
    + rewrite !app_length_s in Fu. cbn [String.length] in Fu.
      assert (0 < String.length t) by (destruct t; [congruence|cbn; lia]).
      rewrite app_length_s. cbn [String.length] in *. lia.
Qed.

Lemma parse_reads : forall fs ts lead fuel, fs <> [] ->
  Forall (each (fun c => c <> ","%char)) fs ->
  each (fun c => sepc c = true) lead ->
  parse_names fuel (lead ++ String.concat "," fs) = Some ts -> reads fs ts.
Proof.
  induction fs as [|f fs IH]; [congruence|]. intros ts lead fuel _ F L P.
  inversion F as [|? ? F1 F2]; subst.
  destruct fuel as [|fuel]; [discriminate|].
  destruct (cut_split blankc f) as (a & f' & -> & A & A' & _).
  assert (AW : each white a).
  { eapply each_impl; [|exact A]. intros c. apply blankc_white. }
  destruct (cut_split (fun c => negb (sepc c)) f') as (t & b & -> & T & T' & _).
  assert (TS : each solid t).
  { eapply each_impl; [|exact T]. intros c C. apply sepc_solid. now apply negb_true_iff. }
  apply each_app in F1 as [_ F1]. apply each_app in F1 as [_ Fb].
  destruct t as [|t0 t].
  - (* no name in this field *)
    assert (b = "").
    { destruct b as [|c b]; auto. exfalso. cbn in A', T', Fb.
      apply negb_false_iff in T'. apply sepc_sep in T' as [T'|T']; [|tauto].
      apply blankc_white in T'. congruence. }
    subst b. cbn [append] in *. rewrite app_nil_s in *.
    destruct fs as [|g fs].
    + cbn [parse_names String.concat] in P. rewrite cut_all in P.
      * injection P as <-. now constructor.
      * apply each_app. auto using white_sep.
    + constructor; auto. rewrite concat_cons in P.
      eapply (IH ts ((lead ++ a) ++ ",")).
      * discriminate.
      * auto.
      * rewrite !each_app. cbn. auto using white_sep.
      * rewrite !app_assoc_s. exact P.
  - set (tt := String t0 t) in *.
    assert (N : tt <> "") by discriminate.
    destruct (cut_split blankc b) as (w & d & -> & W & W' & _).
    assert (WW : each white w).
    { eapply each_impl; [|exact W]. intros c. apply blankc_white. }
    assert (D : d = "").
    { destruct d as [|c d]; auto. exfalso.
      (* something solid after the white space *)
      apply each_app in Fb as [_ [Fc _]].
      assert (X : exists rest, lead ++ String.concat "," ((a ++ tt ++ w ++ String c d) :: fs)
        = (lead ++ a) ++ tt ++ w ++ String c rest).
      { destruct fs as [|g fs].
        - exists d. cbn [String.concat]. now rewrite !app_assoc_s.
        - exists (d ++ "," ++ String.concat "," (g :: fs)). rewrite concat_cons.
          rewrite !app_assoc_s. reflexivity. }
      destruct X as [rest X]. rewrite X in P. cbn [parse_names] in P.
      rewrite seps_cut in P.
      - destruct (tt ++ w ++ String c rest) as [|c' r'] eqn:E; [discriminate|].
        rewrite <- E, cut_app in P; auto.
        + rewrite cut_app in P; auto. cbn [snd] in P.
          destruct (Ascii.eqb_spec c ","); [congruence|discriminate].
        + destruct w as [|w0 w]; cbn in *.
          * exact T'.
          * exact T'.
      - rewrite each_app. auto using white_sep.
      - unfold tt. cbn. unfold tt in TS. cbn in TS. now apply sepc_solid. }
    subst d. rewrite app_nil_s in *.
    assert (HN : holds_name (a ++ tt ++ w) tt) by (exists a, w; auto).
    destruct fs as [|g fs].
    + cbn [String.concat] in P.
      replace (lead ++ a ++ tt ++ w) with ((lead ++ a) ++ tt ++ w ++ "") in P
        by now rewrite app_nil_s, !app_assoc_s.
      rewrite round in P; auto.
      * injection P as <-. now constructor.
      * rewrite each_app. auto using white_sep.
    + rewrite concat_cons in P.
      replace (lead ++ (a ++ tt ++ w) ++ "," ++ String.concat "," (g :: fs)) with
        ((lead ++ a) ++ tt ++ w ++ ("," ++ String.concat "," (g :: fs))) in P
        by now rewrite !app_assoc_s.
      assert (LA : each (fun c => sepc c = true) (lead ++ a))
        by (apply each_app; auto using white_sep).
      rewrite (round fuel (lead ++ a) tt w ("," ++ String.concat "," (g :: fs)) LA TS N WW
        eq_refl) in P.
      destruct (parse_names fuel ("," ++ String.concat "," (g :: fs))) as [ts'|] eqn:Q;
        [|discriminate].
      injection P as <-. apply reads_more; auto.
      apply (IH ts' "," fuel); auto; [discriminate|cbn; auto].
Qed.

Lemma fields_exist : forall s, exists fs, fields s fs.
Proof.
  induction s as [|c s (fs & N & F & ->)].
  - exists [""]. repeat split; [discriminate|constructor; cbn; auto].
  - destruct fs as [|f fs]; [congruence|].
    destruct (Ascii.eqb_spec c ",").
    + subst c. exists ("" :: f :: fs). repeat split; [discriminate|constructor; cbn; auto].
    + exists (String c f :: fs). repeat split; [discriminate| |].
      * inversion F; subst. constructor; auto. cbn. auto.
      * destruct fs; reflexivity.
Qed.

Lemma names_read : forall s ts,
  names_in s = Some ts <-> exists fs, fields s fs /\ reads fs ts.
Proof.
  intros s ts. unfold names_in. split.
  - intros P. destruct (fields_exist s) as (fs & N & F & ->).
    exists fs. split; [split; auto|].
    apply (parse_reads fs ts "" (S (String.length (String.concat "," fs)))); auto.
    cbn. auto.
  - intros (fs & (N & F & ->) & R). apply (reads_parse fs ts R ""); cbn; auto.
Qed.

(** A text without separators is one name. *)
Lemma names_plain : forall s, each solid s -> names_in s = Some [s].
Proof.
  intros s E. apply names_read. exists [s]. split.
  - split; [discriminate|]. split; [|reflexivity]. constructor; [|constructor].
    eapply each_impl; [|exact E]. intros c [_ C]. exact C.
  - destruct s as [|c s].
    + apply reads_blank. cbn. auto.
    + apply reads_last. exists "", "". rewrite app_nil_s. cbn. repeat split; auto.
      * apply E.
      * apply E.
      * apply E.
      * discriminate.
Qed.
