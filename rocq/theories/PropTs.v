(** Properties C13-C15, C44: the TypeScript side. *)
From Coq Require Import List NArith ZArith Lia Bool.
From Verif Require Import Bytes Utf8 WireModel WireSpec WireProofs WireTheorems
  FrameModel FrameProofs PropWire PropFrame TsModel TsProofs TsReader.
Import ListNotations.
Open Scope N_scope.

Lemma exS_ts : ts_ok 256 exS.
Proof. cbn. repeat split; lia. Qed.
Lemma exS_ts16 : ts_ok 65536 exS.
Proof. cbn. repeat split; lia. Qed.
Lemma exV_ts : ts_val exS exV.
Proof.
  cbn. repeat split; auto; try (intros (r & H); discriminate); repeat constructor.
Qed.

(** ** C13: Rust to TypeScript *)

(** Counterexample 1: a struct whose field has id 256 (ids are handed out to all
    entities and fields of a protocol in one sequence). *)
Theorem C13_rust_to_ts_refuted :
  exists b v bs, wf_base b /\ ty_base b v /\ canon true b v /\
    enc_base b v = Ok bs /\ dec_base b bs = Ok v /\ ts_dec_base b bs = Err EMissing.
Proof.
  exists (BStruct (FCons 256 false false (BPrim U8) FNil)), (VStruct [VInt 7]). eexists.
  split; [cbn; repeat split; try lia; repeat constructor; auto|].
  split; [cbn; split; auto; lia|]. split; [cbn; auto|].
  split; [vm_compute; reflexivity|]. split; vm_compute; reflexivity.
Qed.
Print Assumptions C13_rust_to_ts_refuted.

(** In general: no byte sequence at all decodes to such a struct. *)
Theorem C13_high_ids_never_decode : forall fs id,
  In id (field_ids fs) -> 256 <= id ->
  forall bs v, ts_dec_base (BStruct fs) bs <> Ok v.
Proof. exact ts_high_id_undecodable. Qed.
Print Assumptions C13_high_ids_never_decode.

Example C13_high_ids_example :
  In 300 (field_ids (FCons 4 false false (BPrim U8) (FCons 300 true false (BPrim PStr) FNil))) /\
  256 <= 300.
Proof. cbn. split; [auto|lia]. Qed.

(** Counterexample 2: a string starting with U+FEFF loses it. *)
Theorem C13_byte_order_mark_refuted :
  exists b v bs v', wf_base b /\ ts_ok 256 b /\ ty_base b v /\ canon true b v /\
    enc_base b v = Ok bs /\ dec_base b bs = Ok v /\ ts_dec_base b bs = Ok v' /\ v' <> v.
Proof.
  exists (BStruct (FCons 1 false false (BPrim PStr) FNil)),
    (VStruct [VStr (utf8 [65279; 97])]). eexists. eexists.
  split; [cbn; repeat split; try lia; repeat constructor; auto|].
  split; [cbn; repeat split; lia|].
  split.
  { cbn [ty_base ty_fields ty_prim]. split; [|exact I]. exists [65279; 97]. split; [|reflexivity].
    repeat constructor; unfold scalar; lia. }
  split; [cbn; auto|].
  split; [vm_compute; reflexivity|]. split; [vm_compute; reflexivity|].
  split; [vm_compute; reflexivity|]. vm_compute. discriminate.
Qed.
Print Assumptions C13_byte_order_mark_refuted.

(** What holds.  Missing from the full statement: field ids of 256 and more,
    strings starting with a byte order mark, schemas the TypeScript generator
    does not support ([ts_ok]). *)
Theorem C13_rust_to_ts_partial : forall b v,
  wf_base b -> ts_ok 256 b -> ty_base b v -> canon true b v -> ts_val b v ->
  exists bs, enc_base b v = Ok bs /\ (blen bs < 2 ^ 64 -> ts_dec_base b bs = Ok v).
Proof.
  intros b v Hwf Hts Hty Hc Hv.
  destruct (proj1 ts_roundtrip_gen b v Hwf Hts Hty Hv) as (bs & E & _ & _ & _ & D).
  exists bs. split; auto. intros L. rewrite (D L).
  f_equal. apply (proj1 norm_canon); auto.
Qed.
Print Assumptions C13_rust_to_ts_partial.

Example C13_example : wf_base exS /\ ts_ok 256 exS /\ ty_base exS exV /\ canon true exS exV /\
  ts_val exS exV /\ exists bs, enc_base exS exV = Ok bs /\ ts_dec_base exS bs = Ok exV.
Proof.
  split; [exact exS_wf|]. split; [exact exS_ts|]. split; [exact exV_ty|].
  split; [exact exV_canon|]. split; [exact exV_ts|].
  eexists. split; vm_compute; reflexivity.
Qed.

(** Including zero-length optionals: both receivers see the same value, absent. *)
Theorem C13_same_view_partial : forall b v,
  wf_base b -> ts_ok 256 b -> ty_base b v -> canon false b v -> ts_val b v ->
  exists bs, enc_base b v = Ok bs /\
    (blen bs < 2 ^ 64 -> ts_dec_base b bs = dec_base b bs /\ ts_dec_base b bs = Ok (norm b v)).
Proof.
  intros b v Hwf Hts Hty Hc Hv.
  destruct (proj1 ts_roundtrip_gen b v Hwf Hts Hty Hv) as (bs & E & _ & _ & _ & D).
  destruct (codec_delivers_norm b v Hwf Hty Hc) as (bs' & E' & D').
  rewrite E in E'. injection E' as <-.
  exists bs. split; auto. intros L. rewrite (D L), (D' L). auto.
Qed.
Print Assumptions C13_same_view_partial.

Example C13_same_view_example :
  let b := BStruct (FCons 1 true false (BPrim PStr) FNil) in
  let v := VStruct [VSome (VStr [])] in
  wf_base b /\ ts_ok 256 b /\ ty_base b v /\ canon false b v /\ ts_val b v.
Proof.
  cbn. repeat split; try lia; try (repeat constructor; auto; fail); try discriminate; auto.
  - apply valid_nil.
  - intros (r & H). discriminate.
Qed.

(** End to end: packets written by the Rust side, any segmentation, received by
    the TypeScript side. *)
Definition ts_msg_ok (table : list (N * base)) (m : msg) (body : bytes) : Prop :=
  exists b, In (m_id m, b) table /\ wf_base b /\ ts_ok 256 b /\ ty_base b (m_val m) /\
    canon true b (m_val m) /\ ts_val b (m_val m) /\ enc_base b (m_val m) = Ok body /\
    m_id m < 2 ^ 32 /\ m_seq m < 2 ^ 32 /\ m_ts m < 2 ^ 64 /\ blen body + 26 < 2 ^ 64.

Lemma ts_get_msg_in table id b buf v :
  NoDup (map fst table) -> In (id, b) table -> ts_dec_base b buf = Ok v ->
  ts_get_msg table id buf = Ok (id, v).
Proof.
  induction table as [|[i b0] table IH]; intros Nd Hin Hd; [contradiction|].
  cbn [map fst] in Nd. inversion Nd as [|? ? Hni Nd']; subst. cbn [ts_get_msg].
  destruct Hin as [[= -> ->]|Hin].
  - rewrite N.eqb_refl, Hd. reflexivity.
  - destruct (N.eqb_spec i id) as [->|_]; [|auto].
    exfalso. apply Hni. apply (in_map fst) in Hin. exact Hin.
Qed.

Lemma no_packet_nil : no_packet [].
Proof. intros p r _ E. symmetry in E. eapply wire_nonempty; exact E. Qed.

Theorem C13_end_to_end_partial : forall table sig ms bodies cs,
  NoDup (map fst table) -> sig < 2 ^ 16 ->
  Forall2 (ts_msg_ok table) ms bodies ->
  concat cs = concat (map (fun mb => pack (m_id (fst mb)) sig (m_seq (fst mb)) (m_ts (fst mb)) (snd mb))
                          (combine ms bodies)) ->
  blen (concat cs) < 2 ^ 64 ->
  exists os q, ts_feeds (ts_get_msg table) sig rbuf_new cs os (mkBuf [] q) /\
    Forall (eq (TReturned 0)) os /\
    map (fun e => (h_seq (fst e), snd e)) q = map (fun m => (m_seq m, (m_id m, m_val m))) ms.
Proof.
  intros table sig ms bodies cs Nd Hsig Hms E Hl.
  set (pk := fun mb : msg * bytes =>
               mkPacket (m_id (fst mb)) sig (m_seq (fst mb)) (m_ts (fst mb)) (snd mb)) in *.
  set (ps := map pk (combine ms bodies)).
  assert (E' : concat cs = stream ps ++ []).
  { rewrite E, app_nil_r. unfold ps, stream. rewrite flat_map_concat_map, map_map. reflexivity. }
  assert (A : Forall packet_ok ps /\
     Forall (fun p => exists v, p_sig p = sig /\ ts_get_msg table (p_id p) (p_body p) = Ok v) ps /\
     map (fun e => (h_seq (fst e), snd e)) (flat_map (deliver (ts_get_msg table) sig) ps) =
     map (fun m => (m_seq m, (m_id m, m_val m))) ms).
  { subst ps. clear - Nd Hsig Hms. induction Hms as [|m body ms bodies H Hms IH].
    { cbn. auto. }
    destruct IH as (I1 & I2 & I3).
    destruct H as (b & Hin & Hwf & Hts & Hty & Hc & Hv & He & H1 & H2 & H3 & H4).
    destruct (C13_rust_to_ts_partial b (m_val m) Hwf Hts Hty Hc Hv) as (bs & Eb & Db).
    rewrite He in Eb. injection Eb as <-.
    assert (G : ts_get_msg table (m_id m) body = Ok (m_id m, m_val m)).
    { eapply ts_get_msg_in; eauto. apply Db. lia. }
    cbn [combine map]. split; [|split].
    - constructor; [|exact I1]. unfold packet_ok; cbn. auto.
    - constructor; [|exact I2]. eexists. split; [reflexivity|exact G].
    - cbn [flat_map]. unfold deliver at 1. cbn [pk p_sig p_id p_body fst snd].
      rewrite N.eqb_refl, G. cbn [app map fst snd hdr h_seq p_seq]. rewrite I3. reflexivity. }
  destruct A as (A1 & A2 & A3).
  assert (Q : Forall (quiet (ts_get_msg table) sig) ps).
  { eapply Forall_impl; [|exact A2]. cbv beta. intros p (v & H1 & H2). split; [auto|congruence]. }
  assert (B0 : count_bad (ts_get_msg table) sig ps = O).
  { apply count_bad_good. eapply Forall_impl; [|exact A2]. cbv beta. intros p (v & H1 & H2).
    split; eauto. }
  destruct (ts_feed_all (ts_get_msg table) sig cs ps [] rbuf_new A1 Q) as (ns & F & S); auto.
  { apply no_packet_nil. }
  { rewrite <- E'. auto. }
  { exists []. split; [reflexivity|apply no_packet_nil]. }
  rewrite B0 in S. eexists. eexists. split; [exact F|]. split; [|exact A3].
  clear - S. induction ns as [|n ns IH]; cbn in *; constructor.
  - f_equal. lia.
  - apply IH. unfold list_sum. lia.
Qed.
Print Assumptions C13_end_to_end_partial.

Example C13_end_to_end_example :
  let ms := [mkMsg 40 1 7 exV; mkMsg 41 2 8 (VVariant 0 (VInt 5))] in
  exists bodies, Forall2 (ts_msg_ok [(40, exS); (41, exE)]) ms bodies.
Proof.
  cbn zeta. eexists. constructor; [|constructor; [|constructor]].
  - exists exS. cbn [m_id m_seq m_ts m_val].
    split; [left; reflexivity|]. split; [exact exS_wf|]. split; [exact exS_ts|].
    split; [exact exV_ty|]. split; [exact exV_canon|]. split; [exact exV_ts|].
    split; [vm_compute; reflexivity|]. cbn; lia.
  - exists exE. cbn [m_id m_seq m_ts m_val].
    split; [right; left; reflexivity|]. split; [cbn; repeat split; lia|].
    split; [cbn; tauto|]. split; [cbn; lia|]. split; [cbn; auto|]. split; [cbn; auto|].
    split; [vm_compute; reflexivity|]. cbn; lia.
Qed.

(** ** C14: TypeScript to Rust *)

(** Both sides produce the same bytes, for every field id and string; then
    the Rust decoder inverts them.  Missing from the full statement: enum
    fields without value, zero-length enum payloads, schemas outside [ts_ok]. *)
Theorem C14_ts_to_rust_partial : forall b v,
  wf_base b -> ts_ok 65536 b -> ty_base b v -> canon true b v ->
  exists bs, ts_enc_base b v = Ok bs /\ enc_base b v = Ok bs /\
    (blen bs < 2 ^ 64 -> dec_base b bs = Ok v).
Proof.
  intros b v Hwf Hts Hty Hc.
  destruct (codec_roundtrip b v Hwf Hty Hc) as (bs & E & D).
  exists bs. rewrite (proj1 (ts_enc_agree true) b v); auto.
Qed.
Print Assumptions C14_ts_to_rust_partial.

Example C14_example : wf_base exS /\ ts_ok 65536 exS /\ ty_base exS exV /\ canon true exS exV /\
  exists bs, ts_enc_base exS exV = Ok bs /\ dec_base exS bs = Ok exV.
Proof.
  split; [exact exS_wf|]. split; [exact exS_ts16|]. split; [exact exV_ty|].
  split; [exact exV_canon|]. eexists. split; vm_compute; reflexivity.
Qed.

(** Counterexample 1: an enum field left unset is encoded, and refused. *)
Theorem C14_unset_enum_refuted :
  exists b v bs, wf_base b /\ ts_ok 65536 b /\ ty_base b v /\
    ts_enc_base b v = Ok bs /\ dec_base b bs = Err EShort /\ ts_dec_base b bs = Ok v.
Proof.
  exists (BStruct (FCons 1 false false exE FNil)), (VStruct [VDefaults]). eexists.
  split; [cbn; repeat split; try lia; repeat constructor; auto|].
  split; [cbn; repeat split; lia|]. split; [cbn; auto|].
  split; [vm_compute; reflexivity|]. split; vm_compute; reflexivity.
Qed.
Print Assumptions C14_unset_enum_refuted.

(** Counterexample 2: an empty string as enum payload; TypeScript reads it back. *)
Theorem C14_empty_payload_refuted :
  exists b v bs, wf_base b /\ ts_ok 65536 b /\ ty_base b v /\
    ts_enc_base b v = Ok bs /\ dec_base b bs = Err EShort /\ ts_dec_base b bs = Ok v.
Proof.
  exists exE, (VVariant 1 (VStr [])). eexists.
  split; [cbn; repeat split; lia|]. split; [cbn; repeat split; lia|].
  split; [cbn; apply valid_nil|].
  split; [vm_compute; reflexivity|]. split; vm_compute; reflexivity.
Qed.
Print Assumptions C14_empty_payload_refuted.

(** Counterexample 3: a variant declared as array of structs is a single struct
    on the TypeScript side; what it sends means something else to Rust. *)
Theorem C14_struct_array_variant_refuted :
  exists inner w bs, let b := BEnum (VCons true inner VNil) in
    wf_base b /\ ty_base inner w /\
    ts_enc_base b (VVariant 0 w) = Ok bs /\ dec_base b bs = Err EShort.
Proof.
  exists exInner, (VStruct [VInt 5]). eexists. cbv zeta.
  split; [cbn; repeat split; try lia; repeat constructor; auto|].
  split; [cbn; split; auto; lia|]. split; vm_compute; reflexivity.
Qed.
Print Assumptions C14_struct_array_variant_refuted.

(** ** C44: TypeScript to TypeScript *)
Theorem C44_ts_roundtrip_partial : forall b v,
  wf_base b -> ts_ok 256 b -> ty_base b v -> ts_val b v ->
  exists bs, ts_enc_base b v = Ok bs /\ (blen bs < 2 ^ 64 -> ts_dec_base b bs = Ok (norm b v)).
Proof.
  intros b v Hwf Hts Hty Hv.
  destruct (proj1 ts_roundtrip_gen b v Hwf Hts Hty Hv) as (bs & _ & E & _ & _ & D).
  exists bs. auto.
Qed.
Print Assumptions C44_ts_roundtrip_partial.

Example C44_example : wf_base exS /\ ts_ok 256 exS /\ ty_base exS exV /\ ts_val exS exV /\
  norm exS exV = exV.
Proof.
  split; [exact exS_wf|]. split; [exact exS_ts|]. split; [exact exV_ty|].
  split; [exact exV_ts|]. vm_compute. reflexivity.
Qed.

Theorem C44_ts_roundtrip_refuted :
  exists b v bs, wf_base b /\ ty_base b v /\ ts_enc_base b v = Ok bs /\
    ts_dec_base b bs = Err EMissing.
Proof.
  exists (BStruct (FCons 256 false false (BPrim U8) FNil)), (VStruct [VInt 7]). eexists.
  split; [cbn; repeat split; try lia; repeat constructor; auto|].
  split; [cbn; split; auto; lia|].
  split; vm_compute; reflexivity.
Qed.
Print Assumptions C44_ts_roundtrip_refuted.

(** ** C15: progress of the TypeScript receiver *)

(** A packet with another signature: [chunk] never returns, whatever precedes
    or follows it.  26 bytes suffice. *)
Theorem C15_progress_refuted :
  exists (sig : N) (data : bytes), length data = 26%nat /\
    ts_diverges (ts_get_msg [(40, exS)]) sig rbuf_new data.
Proof.
  exists 1, (wire (mkPacket 40 2 0 0 [])). split; [reflexivity|].
  apply (ts_chunk_foreign _ _ rbuf_new _ [] (mkPacket 40 2 0 0 []) []); auto.
  - unfold packet_ok. cbn. lia.
  - cbn. unfold foreign. cbn. lia.
Qed.
Print Assumptions C15_progress_refuted.

(** The exact criterion: [chunk] runs forever if and only if the buffered bytes
    are packets it can process followed by a complete packet with a foreign
    signature. *)
Theorem C15_divergence_criterion :
  forall (M : Type) (dm : N -> bytes -> res M err) (sig : N) st data,
  blen (rb_buf st ++ data) < 2 ^ 64 ->
  ts_diverges dm sig st data <->
  exists ps p r, Forall packet_ok ps /\ Forall (quiet dm sig) ps /\ packet_ok p /\
    p_sig p <> sig /\ rb_buf st ++ data = stream ps ++ wire p ++ r.
Proof. intros M dm sig st data H. apply (ts_diverges_iff dm sig st data H). Qed.
Print Assumptions C15_divergence_criterion.

Example C15_divergence_example :
  let p1 := mkPacket 41 9 0 0 [n2b 0; n2b 0; n2b 5] in let p2 := mkPacket 41 8 0 0 [] in
  Forall packet_ok [p1] /\ Forall (quiet (ts_get_msg [(41, exE)]) 9) [p1] /\
  packet_ok p2 /\ p_sig p2 <> 9.
Proof.
  cbv zeta. split; [repeat constructor; cbn; lia|]. split.
  { repeat constructor. vm_compute. discriminate. }
  split; [unfold packet_ok; cbn; lia|cbn; lia].
Qed.

(** A packet whose decoding throws (an unknown message id does) is never
    consumed: the call throws, and so does every later call; nothing is
    delivered any more. *)
Theorem C15_unknown_id_blocks_refuted :
  exists (table : list (N * base)) sig data st,
    ts_returns (ts_get_msg table) sig rbuf_new data TThrown st /\
    forall more, ts_returns (ts_get_msg table) sig st more TThrown
                   (mkBuf (rb_buf st ++ more) (rb_queue st)).
Proof.
  exists [(40, exS)], 1, (wire (mkPacket 99 1 0 0 [])).
  eexists. assert (H : ts_returns (ts_get_msg [(40, exS)]) 1 rbuf_new (wire (mkPacket 99 1 0 0 []))
     TThrown (mkBuf (wire (mkPacket 99 1 0 0 [])) [])).
  { exists 1%nat. vm_compute. reflexivity. }
  split; [exact H|]. intros more. exact (ts_thrown_stuck _ _ _ _ _ H more).
Qed.
Print Assumptions C15_unknown_id_blocks_refuted.

Theorem C15_throw_blocks :
  forall (M : Type) (dm : N -> bytes -> res M err) (sig : N) st data st',
  ts_returns dm sig st data TThrown st' ->
  forall more, ts_returns dm sig st' more TThrown (mkBuf (rb_buf st' ++ more) (rb_queue st')).
Proof. intros M dm sig st data st' H. exact (ts_thrown_stuck dm sig st data st' H). Qed.
Print Assumptions C15_throw_blocks.

(** What holds: if every complete packet has the expected signature and its
    decoding does not throw, the receiver terminates, consumes every complete
    packet, reports one error per undecodable one and delivers the others in
    order, for every segmentation.  Missing: foreign signatures, exceptions. *)
Theorem C15_progress_partial :
  forall (M : Type) (dm : N -> bytes -> res M err) (sig : N) cs ps tail,
  Forall packet_ok ps -> Forall (quiet dm sig) ps -> no_packet tail ->
  blen (stream ps ++ tail) < 2 ^ 64 -> concat cs = stream ps ++ tail ->
  exists ns, ts_feeds dm sig rbuf_new cs (map TReturned ns)
      (mkBuf tail (flat_map (deliver dm sig) ps)) /\
    list_sum ns = count_bad dm sig ps.
Proof.
  intros M dm sig cs ps tail Hok Hq Ht Hl E.
  destruct (ts_feed_all dm sig cs ps tail rbuf_new Hok Hq Ht Hl) as (ns & F & S); auto.
  { exists []. split; [reflexivity|apply no_packet_nil]. }
  exists ns. auto.
Qed.
Print Assumptions C15_progress_partial.

(** The outcome is unique. *)
Theorem C15_deterministic :
  forall (M : Type) (dm : N -> bytes -> res M err) (sig : N) st cs os1 st1 os2 st2,
  ts_feeds dm sig st cs os1 st1 -> ts_feeds dm sig st cs os2 st2 -> os1 = os2 /\ st1 = st2.
Proof. intros M dm sig st cs os1 st1 os2 st2 H1 H2. exact (ts_feeds_fun dm sig st cs os1 st1 H1 os2 st2 H2). Qed.
Print Assumptions C15_deterministic.

Example C15_example :
  let p1 := mkPacket 41 9 1 0 [n2b 0; n2b 0; n2b 5] in
  let p2 := mkPacket 41 9 2 0 [n2b 0; n2b 0] in
  let p3 := mkPacket 41 9 3 0 [n2b 1; n2b 0] in
  let dm := ts_get_msg [(41, exE)] in
  Forall packet_ok [p1; p2; p3] /\ Forall (quiet dm 9) [p1; p2; p3] /\ no_packet [n2b 1] /\
  count_bad dm 9 [p1; p2; p3] = 1%nat /\
  ts_chunk dm 9 5 rbuf_new (stream [p1; p2; p3] ++ [n2b 1]) =
    Some (TReturned 1, mkBuf [n2b 1] [(hdr p1, (41, VVariant 0 (VInt 5)));
                                      (hdr p3, (41, VVariant 1 (VStr [])))]).
Proof.
  cbv zeta. split; [repeat constructor; cbn; lia|]. split.
  { repeat constructor; vm_compute; discriminate. }
  split.
  { intros p r _ E. apply (f_equal blen) in E. rewrite blen_app, wire_blen in E.
    change (blen [n2b 1]) with 1 in E. lia. }
  split; vm_compute; reflexivity.
Qed.
