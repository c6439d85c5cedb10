(** User-level theorems about the wire codec (properties C01-C08). *)
From Coq Require Import List NArith ZArith Lia Bool Permutation.
From Verif Require Import Bytes Utf8 WireModel WireSpec WireProofs.
From Coq Require Import Strings.Byte.
Import ListNotations.
Open Scope N_scope.

(** ** C01, C02, C03, C07: round trips *)

Lemma codec_roundtrip b v :
  wf_base b -> ty_base b v -> canon true b v ->
  exists bs, enc_base b v = Ok bs /\ (blen bs < 2 ^ 64 -> dec_base b bs = Ok v).
Proof.
  intros W T C. destruct (roundtrip_gen true) as (H & _ & _).
  destruct (H b v W T C) as (bs & E & _ & _ & D).
  exists bs. split; auto. intros L. rewrite D by auto.
  destruct norm_canon as (Nc & _ & _). rewrite Nc; auto.
Qed.

Lemma codec_delivers_norm b v :
  wf_base b -> ty_base b v -> canon false b v ->
  exists bs, enc_base b v = Ok bs /\ (blen bs < 2 ^ 64 -> dec_base b bs = Ok (norm b v)).
Proof.
  intros W T C. destruct (roundtrip_gen false) as (H & _ & _).
  destruct (H b v W T C) as (bs & E & _ & _ & D). exists bs; auto.
Qed.

Lemma codec_injective b v1 v2 bs :
  wf_base b -> ty_base b v1 -> canon true b v1 -> ty_base b v2 -> canon true b v2 ->
  enc_base b v1 = Ok bs -> enc_base b v2 = Ok bs -> blen bs < 2 ^ 64 -> v1 = v2.
Proof.
  intros W T1 C1 T2 C2 E1 E2 L.
  destruct (codec_roundtrip b v1 W T1 C1) as (b1 & E1' & D1).
  destruct (codec_roundtrip b v2 W T2 C2) as (b2 & E2' & D2).
  rewrite E1 in E1'; injection E1' as <-. rewrite E2 in E2'; injection E2' as <-.
  specialize (D1 L). specialize (D2 L). congruence.
Qed.

(** The payload of a variant may be anything typable and canonical, including
    the empty ones: the whole enum survives exactly when it is not empty. *)
Lemma enum_roundtrip_iff vrs i w :
  wf_base (BEnum vrs) -> ty_variant vrs i w -> canon_variant true vrs i w ->
  exists bs, enc_base (BEnum vrs) (VVariant i w) = Ok bs /\
    (blen bs < 2 ^ 64 ->
     (is_empty w = false -> dec_base (BEnum vrs) bs = Ok (VVariant i w)) /\
     (is_empty w = true -> dec_base (BEnum vrs) bs = Err EShort)).
Proof.
  intros W T C. pose proof W as W'. destruct W' as (Wc & Wv).
  destruct (roundtrip_gen true) as (_ & _ & H).
  destruct (H vrs i w Wv T C) as (x & Ex & N0 & _).
  exists (le 2 (N.of_nat i) ++ x). cbn [enc_base]. rewrite Ex. cbn [bind].
  split; [reflexivity|]. intros L. split.
  - intros Hne.
    destruct (codec_roundtrip (BEnum vrs) (VVariant i w) W T (conj Hne C)) as (bs & Eb & Db).
    cbn [enc_base] in Eb. rewrite Ex in Eb. cbn [bind] in Eb. injection Eb as <-.
    apply Db; auto.
  - intros He. apply N0 in He. subst x. cbn [dec_base].
    rewrite blen_app, blen_le. reflexivity.
Qed.

(** An optional field arrives present iff it was sent present and its value has
    non-zero length. *)
Lemma optional_presence_iff fs vs k id rep b v :
  wf_base (BStruct fs) -> ty_fields fs vs -> canon_fields false fs vs ->
  nth_error vs k = Some v ->
  nth_field fs k = Some (id, true, rep, b) ->
  exists bs, enc_base (BStruct fs) (VStruct vs) = Ok bs /\
   (blen bs < 2 ^ 64 ->
    exists vs' v', dec_base (BStruct fs) bs = Ok (VStruct vs') /\
      nth_error vs' k = Some v' /\
      (v' <> VNone <-> exists w, v = VSome w /\ is_empty w = false)).
Proof.
  intros W T C Hv Hf.
  destruct (codec_delivers_norm (BStruct fs) (VStruct vs) W T C) as (bs & E & D).
  exists bs. split; auto. intros L. cbn [norm] in D.
  exists (norm_fields fs vs).
  assert (K : exists v', nth_error (norm_fields fs vs) k = Some v' /\
              (v' <> VNone <-> exists w, v = VSome w /\ is_empty w = false)).
  { clear W E D L C. revert vs k T Hv Hf.
    induction fs as [|i o r b' fs IH]; intros vs k T Hv Hf; [destruct k; discriminate|].
    destruct vs as [|u vs]; [destruct k; discriminate|].
    cbn in T. destruct T as (Tu & T). destruct k as [|k].
    - injection Hf as -> -> -> ->. injection Hv as ->.
      destruct v; try contradiction.
      + exists VNone. split; [reflexivity|]. split; [congruence|].
        intros (w & H & _). discriminate.
      + cbn [norm_fields nth_error]. eexists. split; [reflexivity|].
        unfold norm_opt. destruct (is_empty v) eqn:Ev.
        * split; [congruence|]. intros (w & [= <-] & H). congruence.
        * split; [|congruence]. intros _. eauto.
    - cbn [norm_fields nth_error]. apply IH; auto. }
  destruct K as (v' & K1 & K2). exists v'. auto.
Qed.

(** ** C04: only the field map matters *)

Lemma dec_fields_ext fs m m' :
  (forall id, In id (field_ids fs) -> sget m id = sget m' id) ->
  dec_fields fs m = dec_fields fs m'.
Proof.
  induction fs as [|id opt rep b fs IH]; intros H; [reflexivity|].
  cbn [dec_fields]. rewrite (H id) by (left; reflexivity).
  rewrite IH by (intros; apply H; right; auto). reflexivity.
Qed.

Lemma decode_field_map fs segs segs' :
  Forall seg_ok segs -> Forall seg_ok segs' ->
  (forall id, In id (field_ids fs) -> last_body segs id = last_body segs' id) ->
  dec_base (BStruct fs) (ser segs) = dec_base (BStruct fs) (ser segs').
Proof.
  intros O O' H. cbn [dec_base]. rewrite !storage_new_ser by auto. cbn [bind].
  rewrite (dec_fields_ext fs _ (rev (map pair_of segs'))); [reflexivity|].
  intros id Hin. rewrite !sget_last. auto.
Qed.

Lemma last_body_none segs id : ~ In id (map s_id segs) -> last_body segs id = None.
Proof.
  intros H. unfold last_body. destruct (find _ (rev segs)) eqn:E; auto.
  apply find_some in E. destruct E as (Hin & E). apply N.eqb_eq in E.
  exfalso. apply H. rewrite <- E. apply in_map. apply in_rev; auto.
Qed.

Lemma last_body_some segs id :
  In id (map s_id segs) -> exists s, In s segs /\ s_id s = id /\ last_body segs id = Some (s_body s).
Proof.
  intros H. unfold last_body. destruct (find _ (rev segs)) eqn:E.
  - apply find_some in E. destruct E as (Hin & E). apply N.eqb_eq in E.
    exists s. split; [apply in_rev; auto|]. auto.
  - apply in_map_iff in H. destruct H as (s & Es & Hin).
    apply in_rev in Hin. eapply find_none in E; eauto. cbn in E.
    apply N.eqb_neq in E. congruence.
Qed.

(** Field order is irrelevant. *)
Lemma decode_permutation fs segs segs' :
  Forall seg_ok segs -> NoDup (map s_id segs) -> Permutation segs segs' ->
  dec_base (BStruct fs) (ser segs) = dec_base (BStruct fs) (ser segs').
Proof.
  intros O Nd P. apply decode_field_map; auto.
  - eapply Permutation_Forall; eauto.
  - intros id _.
    assert (Nd' : NoDup (map s_id segs')).
    { eapply Permutation_NoDup; [apply Permutation_map; eauto|auto]. }
    destruct (in_dec N.eq_dec id (map s_id segs)) as [H|H].
    + destruct (last_body_some _ _ H) as (s & Hin & <- & ->).
      symmetry. apply last_body_in; auto. eapply Permutation_in; eauto.
    + rewrite !last_body_none; auto.
      intros C. apply H. eapply Permutation_in; [|eauto].
      apply Permutation_sym, Permutation_map; auto.
Qed.

Lemma last_body_app a b id :
  last_body (a ++ b) id =
  match last_body b id with Some x => Some x | None => last_body a id end.
Proof.
  unfold last_body. rewrite rev_app_distr.
  assert (F : forall (A : Type) (f : A -> bool) l1 l2,
    find f (l1 ++ l2) = match find f l1 with Some x => Some x | None => find f l2 end).
  { intros A f l1 l2. induction l1 as [|x l1 IH]; cbn; [reflexivity|].
    destruct (f x); auto. }
  rewrite F. destruct (find _ (rev b)); reflexivity.
Qed.

(** Fields with ids the struct does not declare are ignored, wherever they are. *)
Lemma decode_unknown_fields fs pre mid post :
  Forall seg_ok (pre ++ mid ++ post) ->
  (forall s, In s mid -> ~ In (s_id s) (field_ids fs)) ->
  dec_base (BStruct fs) (ser (pre ++ mid ++ post)) =
  dec_base (BStruct fs) (ser (pre ++ post)).
Proof.
  intros O U. apply Forall_app in O as (O1 & O2). apply Forall_app in O2 as (O2 & O3).
  apply decode_field_map.
  - repeat (apply Forall_app; split); auto.
  - repeat (apply Forall_app; split); auto.
  - intros id Hid. rewrite !last_body_app.
    destruct (last_body post id); auto.
    rewrite (last_body_none mid); auto.
    intros C. apply in_map_iff in C as (s & <- & Hs). eapply U; eauto.
Qed.

(** Schema evolution: a reader that declares only a prefix of the fields of the
    writer's struct reads exactly its fields. *)
Fixpoint fapp (fs gs : fields) : fields :=
  match fs with
  | FNil => gs
  | FCons id o r b fs => FCons id o r b (fapp fs gs)
  end.

Lemma dec_fields_fapp fs gs m vs :
  dec_fields (fapp fs gs) m = Ok vs ->
  exists v1 v2, vs = v1 ++ v2 /\ dec_fields fs m = Ok v1 /\ dec_fields gs m = Ok v2.
Proof.
  revert vs. induction fs as [|id o r b fs IH]; intros vs H.
  - exists [], vs. auto.
  - cbn [fapp dec_fields] in H |- *.
    match type of H with bind ?x _ = _ => destruct x eqn:Ex; try discriminate end.
    cbn [bind] in H |- *.
    destruct (dec_fields (fapp fs gs) m) eqn:Er; try discriminate.
    cbn [bind] in H. injection H as <-.
    destruct (IH a0 eq_refl) as (v1 & v2 & -> & -> & E2).
    exists (a :: v1), v2. auto.
Qed.

Lemma decode_prefix_reader fs gs buf vs :
  dec_base (BStruct (fapp fs gs)) buf = Ok (VStruct vs) ->
  exists v1 v2, vs = v1 ++ v2 /\ dec_base (BStruct fs) buf = Ok (VStruct v1).
Proof.
  cbn [dec_base]. destruct (storage_new buf) eqn:E; try discriminate. cbn [bind].
  destruct (dec_fields (fapp fs gs) a) eqn:D; try discriminate. cbn [bind].
  intros [= <-]. apply dec_fields_fapp in D as (v1 & v2 & -> & D1 & _).
  exists v1, v2. rewrite D1. auto.
Qed.

(** ** Which buffers are field lists *)

Lemma le1_unle bs : length bs = 1%nat -> le 1 (unle bs) = bs.
Proof. intros H. rewrite <- H. apply le_unle. Qed.

Lemma rank_width_inv r w : rank_width r = Some w ->
  (w = 1 \/ w = 2 \/ w = 4 \/ w = 8)%nat /\ r = 8 * N.of_nat w.
Proof.
  unfold rank_width.
  destruct (N.eqb_spec r 8); [intros [= <-]; subst; auto|].
  destruct (N.eqb_spec r 16); [intros [= <-]; subst; auto|].
  destruct (N.eqb_spec r 32); [intros [= <-]; subst; auto|].
  destruct (N.eqb_spec r 64); [intros [= <-]; subst; auto 10|]. discriminate.
Qed.

Lemma storage_next_inv buf id body rest :
  storage_next buf = Ok (id, body, rest) ->
  exists s, seg_ok s /\ s_id s = id /\ s_body s = body /\ buf = ser_seg s ++ rest.
Proof.
  unfold storage_next.
  destruct (take 2 buf) as [[idb r1]|] eqn:T1; [|discriminate].
  destruct (take 1 r1) as [[rk r2]|] eqn:T2; [|discriminate].
  destruct (rank_width (unle rk)) as [w|] eqn:R; [|discriminate].
  destruct (take w r2) as [[lb r3]|] eqn:T3; [|discriminate].
  cbv zeta. destruct (N.ltb_spec (blen r3) (unle lb)) as [L|L]; [discriminate|].
  intros [= <- <- <-].
  apply take_spec in T1 as (-> & L1). apply take_spec in T2 as (-> & L2).
  apply take_spec in T3 as (-> & L3). apply rank_width_inv in R as (Hw & Rk).
  assert (Hn : length (firstn (N.to_nat (unle lb)) r3) = N.to_nat (unle lb)).
  { rewrite firstn_length. unfold blen in L. lia. }
  assert (Hb : blen (firstn (N.to_nat (unle lb)) r3) = unle lb).
  { unfold blen. rewrite Hn. lia. }
  exists (mkSeg (unle idb) w (firstn (N.to_nat (unle lb)) r3)).
  repeat split; cbn [s_id s_width s_body]; auto.
  - pose proof (unle_bound idb). unfold blen in H. rewrite L1 in H. exact H.
  - rewrite Hb. pose proof (unle_bound lb). unfold blen in H. rewrite L3 in H. exact H.
  - unfold ser_seg; cbn [s_id s_width s_body]. rewrite Hb, <- Rk.
    rewrite le1_unle by auto.
    rewrite <- L1 at 1. rewrite le_unle. rewrite <- L3 at 1. rewrite le_unle.
    rewrite <- !app_assoc. rewrite firstn_skipn. reflexivity.
Qed.

Lemma ser_app a b : ser (a ++ b) = ser a ++ ser b.
Proof. apply flat_map_app. Qed.

Lemma storage_loop_inv fuel : forall buf m m',
  storage_loop fuel buf m = Ok m' ->
  exists segs, Forall seg_ok segs /\ buf = ser segs /\ m' = rev (map pair_of segs) ++ m.
Proof.
  induction fuel as [|fuel IH]; intros buf m m' H; [discriminate|].
  cbn [storage_loop] in H.
  destruct (storage_next buf) as [[[id body] rest]|e|] eqn:E; try discriminate.
  cbn [bind] in H. apply storage_next_inv in E as (s & Os & Hid & Hbody & ->).
  destruct rest as [|c rest].
  - injection H as <-. exists [s]. split; [auto|]. cbn. unfold pair_of.
    rewrite Hid, Hbody. auto.
  - apply IH in H as (segs & O & E & ->).
    exists (s :: segs). split; [auto|]. split; [cbn; rewrite E; reflexivity|].
    cbn [map rev]. rewrite <- app_assoc. unfold pair_of at 3. rewrite Hid, Hbody. reflexivity.
Qed.

Lemma storage_new_inv buf m :
  storage_new buf = Ok m ->
  exists segs, Forall seg_ok segs /\ buf = ser segs /\ m = rev (map pair_of segs).
Proof.
  unfold storage_new. destruct buf as [|c buf].
  - intros [= <-]. exists []. auto.
  - intros H. apply storage_loop_inv in H as (segs & O & E & ->).
    exists segs. rewrite app_nil_r. auto.
Qed.

(** ** C05 *)

Lemma dec_fields_complete fs m vs :
  dec_fields fs m = Ok vs -> forall id, In id (field_ids fs) -> sget m id <> None.
Proof.
  revert vs. induction fs as [|i o r b fs IH]; intros vs H id Hin; [contradiction|].
  cbn [dec_fields] in H. destruct (sget m i) eqn:E; [|discriminate].
  destruct Hin as [<-|Hin]; [cbn; congruence|].
  match type of H with bind ?x _ = _ => destruct x; try discriminate end.
  cbn [bind] in H. destruct (dec_fields fs m) eqn:D; try discriminate.
  eapply IH; eauto.
Qed.

(** Whatever bytes were accepted as a struct, they are a field list in which
    every declared field occurs. *)
Lemma decode_requires_all_fields fs buf v :
  dec_base (BStruct fs) buf = Ok v ->
  exists segs, Forall seg_ok segs /\ buf = ser segs /\
    forall id, In id (field_ids fs) -> exists s, In s segs /\ s_id s = id.
Proof.
  cbn [dec_base]. destruct (storage_new buf) eqn:E; try discriminate. cbn [bind].
  destruct (dec_fields fs a) eqn:D; try discriminate. intros _.
  apply storage_new_inv in E as (segs & O & -> & ->).
  exists segs. split; [auto|]. split; [auto|]. intros id Hid.
  pose proof (dec_fields_complete _ _ _ D id Hid) as H. rewrite sget_last in H.
  destruct (in_dec N.eq_dec id (map s_id segs)) as [Hin|Hin].
  - apply in_map_iff in Hin as (s & Es & Hs). eauto.
  - rewrite last_body_none in H by auto. congruence.
Qed.

(** If a declared field is missing and the fields declared before it are fine,
    the result is precisely the "missing" error. *)
Lemma decode_missing_is_error fs id o r b gs segs :
  Forall seg_ok segs -> ~ In id (map s_id segs) ->
  (exists vs, dec_base (BStruct fs) (ser segs) = Ok vs) ->
  dec_base (BStruct (fapp fs (FCons id o r b gs))) (ser segs) = Err EMissing.
Proof.
  intros O Hn (vs & Hd). cbn [dec_base] in *. rewrite storage_new_ser in * by auto.
  cbn [bind] in *.
  destruct (dec_fields fs (rev (map pair_of segs))) as [l|e|] eqn:D; try discriminate.
  clear Hd. revert l D. induction fs as [|i o' r' b' fs IH]; intros l D.
  - cbn [fapp dec_fields]. rewrite sget_last, last_body_none by auto. reflexivity.
  - cbn [fapp dec_fields] in *.
    match type of D with bind ?x _ = _ => destruct x; try discriminate end.
    cbn [bind] in *. destruct (dec_fields fs (rev (map pair_of segs))) eqn:D'; try discriminate.
    specialize (IH _ eq_refl).
    destruct (dec_fields (fapp fs (FCons id o r b gs)) (rev (map pair_of segs))); cbn in *; congruence.
Qed.

(** ** C06: panics *)

(** [buf] is a field list cut in the middle of a field. *)
Definition truncated (buf : bytes) : Prop :=
  exists segs s t u, Forall seg_ok segs /\ seg_ok s /\ t <> [] /\ u <> [] /\
    ser_seg s = t ++ u /\ buf = ser segs ++ t.

Lemma firstn_lt_app {A} (l : list A) k : (length l < k)%nat -> forall d : A,
  exists u, u <> [] /\ length (l ++ u) = k.
Proof.
  intros H d. exists (repeat d (k - length l)). split.
  - destruct (k - length l)%nat eqn:E; [lia|discriminate].
  - rewrite app_length, repeat_length. lia.
Qed.

Lemma le_unle_k k bs : length bs = k -> le k (unle bs) = bs.
Proof. intros <-. apply le_unle. Qed.

(** [storage_next] panics exactly on proper prefixes of a segment. *)
Lemma storage_next_panic buf :
  storage_next buf = Panic -> exists s u, seg_ok s /\ u <> [] /\ ser_seg s = buf ++ u.
Proof.
  unfold storage_next.
  (* build a segment from header parts *)
  assert (Mk : forall idb rk w lb body,
     length idb = 2%nat -> length rk = 1%nat -> rank_width (unle rk) = Some w ->
     length lb = w -> blen body = unle lb ->
     exists s, seg_ok s /\ ser_seg s = idb ++ rk ++ lb ++ body).
  { intros idb rk w lb body L1 L2 R L3 Lb. apply rank_width_inv in R as (Hw & Rk).
    exists (mkSeg (unle idb) w body). unfold seg_ok, ser_seg; cbn [s_id s_width s_body].
    rewrite Lb, <- Rk, !le_unle_k by auto.
    split; [|reflexivity]. split.
    - pose proof (unle_bound idb) as B. unfold blen in B. rewrite L1 in B. exact B.
    - split; [exact Hw|]. pose proof (unle_bound lb) as B. unfold blen in B.
      rewrite L3 in B. exact B. }
  assert (Body : forall n : N, exists body : bytes, blen body = n).
  { intros n. exists (repeat x00 (N.to_nat n)). unfold blen. rewrite repeat_length. lia. }
  destruct (take 2 buf) as [[idb r1]|] eqn:T1.
  2:{ intros _. unfold take in T1.
      destruct (Nat.ltb_spec (length buf) 2) as [L|]; [|discriminate].
      destruct (firstn_lt_app buf 2 L x00) as (u & Hu & Lu).
      destruct (Mk (buf ++ u) (le 1 8) 1%nat (le 1 0) []) as (s & Os & Es); auto.
      exists s, (u ++ le 1 8 ++ le 1 0 ++ []). split; [auto|]. split.
      - destruct u; [congruence|discriminate].
      - rewrite Es. rewrite <- !app_assoc. reflexivity. }
  apply take_spec in T1 as (-> & L1).
  destruct (take 1 r1) as [[rk r2]|] eqn:T2.
  2:{ intros _. unfold take in T2.
      destruct (Nat.ltb_spec (length r1) 1) as [L|]; [|discriminate].
      destruct r1; [|cbn in L; lia].
      destruct (Mk idb (le 1 8) 1%nat (le 1 0) []) as (s & Os & Es); auto.
      exists s, (le 1 8 ++ le 1 0 ++ []). split; [auto|]. split; [discriminate|].
      rewrite Es, !app_nil_r. reflexivity. }
  apply take_spec in T2 as (-> & L2).
  destruct (rank_width (unle rk)) as [w|] eqn:R; [|discriminate].
  destruct (take w r2) as [[lb r3]|] eqn:T3.
  2:{ intros _. unfold take in T3.
      destruct (Nat.ltb_spec (length r2) w) as [L|]; [|discriminate].
      destruct (firstn_lt_app r2 w L x00) as (u & Hu & Lu).
      destruct (Body (unle (r2 ++ u))) as (body & Hb).
      destruct (Mk idb rk w (r2 ++ u) body) as (s & Os & Es); auto.
      exists s, (u ++ body). split; [auto|]. split.
      - destruct u; [congruence|discriminate].
      - rewrite Es. rewrite <- !app_assoc. reflexivity. }
  apply take_spec in T3 as (-> & L3).
  cbv zeta. destruct (N.ltb_spec (blen r3) (unle lb)) as [L|L]; [|discriminate].
  intros _. destruct (Body (unle lb - blen r3)) as (u & Hu).
  destruct (Mk idb rk w lb (r3 ++ u)) as (s & Os & Es); auto.
  { rewrite blen_app. lia. }
  exists s, u. split; [auto|]. split.
  - intros ->. rewrite blen_nil in Hu. lia.
  - rewrite Es. rewrite <- !app_assoc. reflexivity.
Qed.

Lemma prefix_app {A} (a b c d : list A) :
  a ++ b = c ++ d -> (length a <= length c)%nat -> exists e, c = a ++ e.
Proof.
  revert c. induction a as [|x a IH]; intros c H L; [exists c; auto|].
  destruct c as [|y c]; cbn in *; [lia|]. injection H as <- H.
  destruct (IH c H) as (e & ->); [lia|]. exists e; auto.
Qed.

(** A proper prefix of a segment makes the reader panic. *)
Lemma storage_next_prefix s t u :
  seg_ok s -> u <> [] -> ser_seg s = t ++ u -> storage_next t = Panic.
Proof.
  intros Os Hu E.
  (* all components of the header that fit into t are those of s *)
  assert (Len : (length t < length (ser_seg s))%nat).
  { rewrite E, app_length. destruct u; [congruence|cbn; lia]. }
  pose proof Os as (Hid & Hw & Hb).
  unfold ser_seg in E, Len. rewrite !app_length, !le_length in Len.
  unfold storage_next.
  destruct (take 2 t) as [[idb r1]|] eqn:T1; [|reflexivity].
  apply take_spec in T1 as (-> & L1). rewrite <- app_assoc in E.
  assert (E1 : idb = le 2 (s_id s) /\ le 1 (8 * N.of_nat (s_width s)) ++
     le (s_width s) (blen (s_body s)) ++ s_body s = r1 ++ u).
  { pose proof (firstn_app_len 2 idb (r1 ++ u) L1) as F1.
    pose proof (skipn_app_len 2 idb (r1 ++ u) L1) as S1.
    rewrite <- E in F1, S1.
    rewrite firstn_app_len in F1 by apply le_length.
    rewrite skipn_app_len in S1 by apply le_length. auto. }
  destruct E1 as (-> & E1). clear E.
  destruct (take 1 r1) as [[rk r2]|] eqn:T2; [|reflexivity].
  apply take_spec in T2 as (-> & L2). rewrite <- app_assoc in E1.
  assert (E2 : rk = le 1 (8 * N.of_nat (s_width s)) /\
     le (s_width s) (blen (s_body s)) ++ s_body s = r2 ++ u).
  { pose proof (firstn_app_len 1 rk (r2 ++ u) L2) as F1.
    pose proof (skipn_app_len 1 rk (r2 ++ u) L2) as S1.
    rewrite <- E1 in F1, S1.
    rewrite firstn_app_len in F1 by apply le_length.
    rewrite skipn_app_len in S1 by apply le_length. auto. }
  destruct E2 as (-> & E2). clear E1.
  rewrite rank_width_ok by auto.
  destruct (take (s_width s) r2) as [[lb r3]|] eqn:T3; [|reflexivity].
  apply take_spec in T3 as (-> & L3). rewrite <- app_assoc in E2.
  assert (E3 : lb = le (s_width s) (blen (s_body s)) /\ s_body s = r3 ++ u).
  { pose proof (firstn_app_len (s_width s) lb (r3 ++ u) L3) as F1.
    pose proof (skipn_app_len (s_width s) lb (r3 ++ u) L3) as S1.
    rewrite <- E2 in F1, S1.
    rewrite firstn_app_len in F1 by apply le_length.
    rewrite skipn_app_len in S1 by apply le_length. auto. }
  destruct E3 as (-> & E3). cbv zeta. rewrite unle_le_small by auto.
  rewrite E3. rewrite blen_app.
  destruct (N.ltb_spec (blen r3) (blen r3 + blen u)) as [L|L]; [reflexivity|].
  destruct u; [congruence|rewrite blen_cons in L; lia].
Qed.

Lemma storage_next_shrinks buf id body rest :
  storage_next buf = Ok (id, body, rest) -> (length rest < length buf)%nat.
Proof.
  intros H. apply storage_next_inv in H as (s & Os & _ & _ & ->).
  unfold ser_seg. rewrite !app_length, !le_length. lia.
Qed.

(** Fuel is never exhausted. *)
Lemma storage_loop_fuel fuel : forall buf m,
  (length buf <= fuel)%nat -> buf <> [] -> storage_loop fuel buf m <> Err EFuel.
Proof.
  induction fuel as [|fuel IH]; intros buf m L Hne; [destruct buf; cbn in L; [congruence|lia]|].
  cbn [storage_loop]. destruct (storage_next buf) as [[[id body] rest]|e|] eqn:E.
  - cbn [bind]. destruct rest as [|c rest]; [discriminate|].
    apply IH; [|discriminate]. apply storage_next_shrinks in E. lia.
  - cbn [bind]. unfold storage_next in E.
    repeat match type of E with
           | match ?x with _ => _ end = _ => destruct x; try discriminate
           | (let (_, _) := ?x in _) = _ => destruct x; try discriminate
           end; injection E as <-; discriminate.
  - discriminate.
Qed.

Lemma storage_loop_panic fuel : forall m l, l <> [] ->
  storage_loop fuel l m = Panic -> truncated l.
Proof.
  induction fuel as [|fuel IH]; intros m l Hne H; [discriminate|].
  cbn [storage_loop] in H.
  destruct (storage_next l) as [[[id body] rest]|e|] eqn:E; try discriminate.
  - cbn [bind] in H. destruct rest as [|c rest]; [discriminate|].
    apply IH in H as (segs & s & t & u & O & Os & Ht & Hu & Es & Eq); [|discriminate].
    apply storage_next_inv in E as (s0 & Os0 & _ & _ & ->).
    exists (s0 :: segs), s, t, u.
    split; [auto|]. split; [auto|]. split; [auto|]. split; [auto|]. split; [auto|].
    change (ser (s0 :: segs)) with (ser_seg s0 ++ ser segs).
    rewrite <- app_assoc, <- Eq. reflexivity.
  - apply storage_next_panic in E as (s & u & Os & Hu & Es).
    exists [], s, l, u. auto 10.
Qed.

Lemma storage_loop_truncated segs : forall fuel m s t u,
  Forall seg_ok segs -> seg_ok s -> t <> [] -> u <> [] -> ser_seg s = t ++ u ->
  (length segs < fuel)%nat ->
  storage_loop fuel (ser segs ++ t) m = Panic.
Proof.
  induction segs as [|s0 segs IH]; intros fuel m s t u O Os Ht Hu Es Hf.
  - destruct fuel; [lia|]. cbn [storage_loop ser flat_map app].
    rewrite (storage_next_prefix s t u); auto.
  - inversion O; subst. destruct fuel; [lia|]. cbn [storage_loop ser flat_map].
    fold (ser segs). rewrite <- app_assoc, storage_next_ser by auto. cbn [bind].
    destruct (ser segs ++ t) as [|c l] eqn:E.
    { destruct (ser segs); [|discriminate]. cbn in E. congruence. }
    rewrite <- E. apply (IH fuel _ s t u); auto. cbn [length] in Hf. lia.
Qed.

Lemma storage_new_panic_iff buf : storage_new buf = Panic <-> truncated buf.
Proof.
  unfold storage_new. split.
  - destruct buf as [|c buf]; [discriminate|]. apply storage_loop_panic. discriminate.
  - intros (segs & s & t & u & O & Os & Ht & Hu & Es & ->).
    destruct (ser segs ++ t) as [|c l] eqn:E.
    { destruct (ser segs), t; cbn in E; congruence. }
    rewrite <- E. eapply storage_loop_truncated; eauto.
    rewrite app_length. pose proof (ser_length segs). destruct t; [congruence|cbn; lia].
Qed.

(** Every struct payload cut inside a field crashes the receiver, whatever the
    struct type. *)
Lemma truncated_struct_panics fs buf : truncated buf -> dec_base (BStruct fs) buf = Panic.
Proof. intros H. cbn [dec_base]. apply storage_new_panic_iff in H. rewrite H. reflexivity. Qed.

(** A buffer that is complete at every level: recursively, every struct payload
    is a field list, and announced array item lengths stay below 2^64 - 8. *)
Definition item_lengths_ok (items : list bytes) : Prop :=
  Forall (fun x => blen x + 8 < 2 ^ 64) items.

Definition ser_items (items : list bytes) : bytes :=
  flat_map (fun x => le 8 (blen x) ++ x) items.

Fixpoint complete (b : base) (buf : bytes) {struct b} : Prop :=
  match b with
  | BPrim _ => True
  | BStruct fs =>
    exists segs, Forall seg_ok segs /\ buf = ser segs /\ complete_fields fs segs
  | BEnum vrs => complete_variants vrs (skipn 2 buf)
  end
with complete_fields (fs : fields) (segs : list seg) {struct fs} : Prop :=
  match fs with
  | FNil => True
  | FCons id opt rep b fs =>
    (forall body, last_body segs id = Some body ->
       (opt = true /\ body = []) \/
       (if rep
        then match b with
             | BPrim _ => True
             | _ => exists items, body = ser_items items /\ item_lengths_ok items /\
                                  Forall (complete b) items
             end
        else complete b body)) /\
    complete_fields fs segs
  end
with complete_variants (vrs : variants) (buf : bytes) {struct vrs} : Prop :=
  match vrs with
  | VNil => True
  | VCons rep b vrs =>
    (if rep
     then match b with
          | BPrim _ => True
          | _ => exists items, buf = ser_items items /\ item_lengths_ok items /\
                               Forall (complete b) items
          end
     else complete b buf) /\
    complete_variants vrs buf
  end.

Lemma dec_prim_no_panic p buf : dec_prim p buf <> Panic.
Proof.
  unfold dec_prim. destruct (prim_size p); [|discriminate].
  destruct (take n buf) as [[? ?]|]; discriminate.
Qed.

Lemma dec_chunks_no_panic k item fuel : (forall x, item x <> Panic) ->
  forall buf, dec_chunks k item fuel buf <> Panic.
Proof.
  intros Hi. induction fuel as [|fuel IH]; intros buf; destruct buf as [|c buf]; try discriminate.
  cbn [dec_chunks]. destruct (take k (c :: buf)) as [[a r]|]; [|discriminate].
  specialize (Hi a). specialize (IH r). destruct (item a); try discriminate; try congruence.
  cbn [bind]. destruct (dec_chunks k item fuel r); try discriminate; congruence.
Qed.

Lemma dec_items4_no_panic item fuel : (forall x, item x <> Panic) ->
  forall buf, dec_items 4 item fuel buf <> Panic.
Proof.
  intros Hi. induction fuel as [|fuel IH]; intros buf; destruct buf as [|c buf]; try discriminate.
  cbn [dec_items]. destruct (take 4 (c :: buf)) as [[a r]|] eqn:T; [|discriminate].
  apply take_spec in T as (_ & La). cbv zeta.
  pose proof (unle_bound a) as B. unfold blen in B. rewrite La in B.
  change (256 ^ N.of_nat 4) with 4294967296 in B.
  change (2 ^ 64) with 18446744073709551616.
  destruct (N.leb_spec 18446744073709551616 (N.of_nat 4 + unle a)); [lia|].
  destruct (blen r <? unle a); [discriminate|].
  specialize (Hi (firstn (N.to_nat (unle a)) r)).
  specialize (IH (skipn (N.to_nat (unle a)) r)).
  destruct (item (firstn (N.to_nat (unle a)) r)); try discriminate; try congruence.
  cbn [bind]. destruct (dec_items 4 item fuel (skipn (N.to_nat (unle a)) r)); try discriminate; congruence.
Qed.

Lemma dec_items8_no_panic item items : forall fuel,
  item_lengths_ok items -> Forall (fun x => item x <> Panic) items ->
  dec_items 8 item fuel (ser_items items) <> Panic.
Proof.
  induction items as [|x items IH]; intros fuel L Hi; [destruct fuel; discriminate|].
  inversion L; inversion Hi; subst.
  destruct fuel as [|fuel]; [discriminate|].
  cbn [ser_items flat_map]. fold (ser_items items). rewrite <- app_assoc.
  rewrite dec_items_step; [|apply le_length|lia].
  rewrite unle_le_small by (change (256 ^ N.of_nat 8) with (2 ^ 64); lia).
  destruct (N.leb_spec (2 ^ 64) (N.of_nat 8 + blen x)); [lia|].
  rewrite blen_app. destruct (N.ltb_spec (blen x + blen (ser_items items)) (blen x)); [discriminate|].
  unfold blen. rewrite Nnat.Nat2N.id, firstn_app_exact, skipn_app_exact.
  destruct (item x); try discriminate; try congruence. cbn [bind].
  specialize (IH fuel H2 H6).
  destruct (dec_items 8 item fuel (ser_items items)); try discriminate; congruence.
Qed.

Lemma complete_no_panic :
  (forall b buf, complete b buf -> dec_base b buf <> Panic) /\
  (forall fs segs, complete_fields fs segs -> dec_fields fs (rev (map pair_of segs)) <> Panic) /\
  (forall vrs i buf, complete_variants vrs buf -> dec_variant vrs i buf <> Panic).
Proof.
  assert (R : forall (rep : bool) b buf, (forall x, complete b x -> dec_base b x <> Panic) ->
     (if rep
      then match b with
           | BPrim _ => True
           | _ => exists items, buf = ser_items items /\ item_lengths_ok items /\
                                Forall (complete b) items
           end
      else complete b buf) -> dec_rep rep b buf <> Panic).
  { intros rep b buf IH Hc. unfold dec_rep. destruct rep; [|auto].
    unfold dec_list.
    assert (X : match b with
      | BPrim p => match prim_size p with
                   | Some k => dec_chunks k (dec_base b) (length buf) buf
                   | None => dec_items 4 (dec_base b) (length buf) buf
                   end
      | _ => dec_items 8 (dec_base b) (length buf) buf
      end <> Panic).
    { destruct b as [p|fs|vrs].
      - destruct (prim_size p).
        + apply dec_chunks_no_panic. intros. apply dec_prim_no_panic.
        + apply dec_items4_no_panic. intros. apply dec_prim_no_panic.
      - destruct Hc as (items & -> & L & F). apply dec_items8_no_panic; auto.
        eapply Forall_impl; [|exact F]. auto.
      - destruct Hc as (items & -> & L & F). apply dec_items8_no_panic; auto.
        eapply Forall_impl; [|exact F]. auto. }
    match goal with |- bind ?x _ <> _ => destruct x end; try discriminate. congruence. }
  apply ty_mut.
  - intros p buf _. apply dec_prim_no_panic.
  - intros fs IH buf (segs & O & -> & Hc). cbn [dec_base].
    rewrite storage_new_ser by auto. cbn [bind]. specialize (IH segs Hc).
    destruct (dec_fields fs (rev (map pair_of segs))); try discriminate; congruence.
  - intros vrs IH buf Hc. cbn [dec_base]. destruct (blen buf <=? 2); [discriminate|].
    specialize (IH (unle (firstn 2 buf)) _ Hc).
    destruct (dec_variant vrs (unle (firstn 2 buf)) (skipn 2 buf)) as [[? ?]| |];
      try discriminate; congruence.
  - discriminate.
  - intros id opt rep b IHb fs IHfs segs (Hb & Hc). specialize (IHfs segs Hc).
    cbn [dec_fields]. rewrite sget_last. destruct (last_body segs id) as [body|]; [|discriminate].
    specialize (Hb body eq_refl).
    assert (X : (if opt then match body with
                  | [] => Ok VNone
                  | _ => do w <- dec_rep rep b body; Ok (VSome w) end
                 else dec_rep rep b body) <> @Panic val err).
    { destruct Hb as [(-> & ->)|Hb]; [discriminate|].
      specialize (R rep b body IHb Hb).
      destruct opt; auto. destruct body; [discriminate|].
      destruct (dec_rep rep b (b0 :: body)); try discriminate; congruence. }
    intros C. apply X. clear X. 
    unfold dec_rep.
    match type of C with bind ?x _ = _ => destruct x eqn:Ex end; [|discriminate|].
    + cbn [bind] in C. destruct (dec_fields fs (rev (map pair_of segs))); try discriminate; congruence.
    + reflexivity.
  - discriminate.
  - intros rep b IHb vrs IHv i buf (Hb & Hc). cbn [dec_variant].
    destruct (i =? 0).
    + specialize (R rep b buf IHb Hb). unfold dec_rep in R.
      destruct (if rep then dec_list b (dec_base b) buf else dec_base b buf); try discriminate; congruence.
    + specialize (IHv (i - 1) buf Hc). destruct (dec_variant vrs (i - 1) buf) as [[? ?]| |];
        try discriminate; congruence.
Qed.

(** ** C08 *)

Lemma string_roundtrip s : valid_utf8 s ->
  enc_base (BPrim PStr) (VStr s) = Ok s /\ dec_base (BPrim PStr) s = Ok (VStr s).
Proof. intros H. split; [reflexivity|]. cbn. unfold dec_prim. cbn. rewrite lossy_valid; auto. Qed.

Lemma string_decode_total buf :
  exists s, dec_base (BPrim PStr) buf = Ok (VStr s) /\ valid_utf8 s.
Proof. exists (lossy buf). split; [reflexivity|]. apply lossy_always_valid. Qed.
