(** Properties C01-C08: the Rust wire codec. *)
From Coq Require Import List NArith ZArith Lia Bool Permutation.
From Verif Require Import Bytes Utf8 WireModel WireSpec WireProofs WireTheorems.
Import ListNotations.
Open Scope N_scope.

(** A schema used by the examples:
      enum E { u8 a; str b; }
      struct Inner { i32 x; }
      struct S { u16 n; str? s; Inner[] l; E e; u8[]? o; } *)
Definition exE : base := BEnum (VCons false (BPrim U8) (VCons false (BPrim PStr) VNil)).
Definition exInner : base := BStruct (FCons 4 false false (BPrim I32) FNil).
Definition exS : base :=
  BStruct (FCons 10 false false (BPrim U16)
          (FCons 11 true false (BPrim PStr)
          (FCons 12 false true exInner
          (FCons 13 false false exE
          (FCons 14 true true (BPrim U8) FNil))))).
Definition exV : val :=
  VStruct [VInt 513; VSome (VStr [n2b 104; n2b 105]);
           VList [VStruct [VInt (-7)]; VStruct [VInt 2147483647]];
           VVariant 1 (VStr [n2b 122]); VNone].

Lemma exS_wf : wf_base exS.
Proof. cbn. repeat split; try lia; repeat constructor; cbn; intuition discriminate. Qed.
Lemma ascii_valid s : Forall (fun b => b2n b < 128) s -> valid_utf8 s.
Proof.
  intros H. exists (map b2n s). split.
  - apply Forall_map. eapply Forall_impl; [|exact H]. cbn. intros a Ha. left. lia.
  - induction H as [|b s Hb Hs IH]; [reflexivity|]. cbn [map]. unfold utf8 in *. cbn [flat_map].
    rewrite <- IH. unfold utf8_enc. destruct (N.ltb_spec (b2n b) 128); [|lia].
    rewrite n2b_b2n. reflexivity.
Qed.
Lemma exV_ty : ty_base exS exV.
Proof.
  cbn -[Z.pow valid_utf8]. repeat split; try lia; auto;
    try (apply ascii_valid; repeat constructor; fail).
  repeat constructor; cbn -[Z.pow]; lia.
Qed.
Lemma exV_canon : canon true exS exV.
Proof. cbn. repeat split; auto; repeat constructor. Qed.

(** ** C01 *)
Theorem C01_struct_roundtrip : forall b v,
  wf_base b -> ty_base b v -> canon true b v ->
  exists bs, enc_base b v = Ok bs /\ (blen bs < 2 ^ 64 -> dec_base b bs = Ok v).
Proof. exact codec_roundtrip. Qed.
Print Assumptions C01_struct_roundtrip.

Example C01_example : wf_base exS /\ ty_base exS exV /\ canon true exS exV /\
  exists bs, enc_base exS exV = Ok bs /\ length bs = 80%nat /\ dec_base exS bs = Ok exV.
Proof.
  split; [exact exS_wf|]. split; [exact exV_ty|]. split; [exact exV_canon|].
  eexists. split; [vm_compute; reflexivity|]. split; vm_compute; reflexivity.
Qed.

(** ** C02 *)
Theorem C02_optional_presence_refuted :
  exists b v bs v', wf_base b /\ ty_base b v /\ enc_base b v = Ok bs /\ dec_base b bs = Ok v' /\
    v = VStruct [VSome (VStr [])] /\ v' = VStruct [VNone].
Proof.
  exists (BStruct (FCons 1 true false (BPrim PStr) FNil)), (VStruct [VSome (VStr [])]).
  eexists. eexists. split; [cbn; repeat split; try lia; repeat constructor; auto|].
  split; [cbn; split; auto; apply valid_nil|].
  split; [vm_compute; reflexivity|]. split; [vm_compute; reflexivity|]. auto.
Qed.
Print Assumptions C02_optional_presence_refuted.

(** Presence survives exactly when the value is not zero-length.  Missing from
    the full statement: zero-length present values (they become absent). *)
Theorem C02_optional_presence_partial : forall fs vs k id rep b v,
  wf_base (BStruct fs) -> ty_fields fs vs -> canon_fields false fs vs ->
  nth_error vs k = Some v ->
  nth_field fs k = Some (id, true, rep, b) ->
  exists bs, enc_base (BStruct fs) (VStruct vs) = Ok bs /\
   (blen bs < 2 ^ 64 ->
    exists vs' v', dec_base (BStruct fs) bs = Ok (VStruct vs') /\
      nth_error vs' k = Some v' /\
      (v' <> VNone <-> exists w, v = VSome w /\ is_empty w = false)).
Proof. exact optional_presence_iff. Qed.
Print Assumptions C02_optional_presence_partial.

(** What a receiver sees in general, including zero-length optionals. *)
Theorem C02_delivered_value_partial : forall b v,
  wf_base b -> ty_base b v -> canon false b v ->
  exists bs, enc_base b v = Ok bs /\ (blen bs < 2 ^ 64 -> dec_base b bs = Ok (norm b v)).
Proof. exact codec_delivers_norm. Qed.
Print Assumptions C02_delivered_value_partial.

Example C02_example :
  exists bs, enc_base exS (VStruct [VInt 1; VSome (VStr []); VList []; VVariant 0 (VInt 3);
                                    VSome (VList [VInt 1])]) = Ok bs /\
  dec_base exS bs = Ok (VStruct [VInt 1; VNone; VList []; VVariant 0 (VInt 3);
                                 VSome (VList [VInt 1])]).
Proof. eexists. split; vm_compute; reflexivity. Qed.

(** ** C03 *)
Theorem C03_enum_decodable_refuted :
  exists b v bs, wf_base b /\ ty_base b v /\ enc_base b v = Ok bs /\ dec_base b bs = Err EShort.
Proof.
  exists exE, (VVariant 1 (VStr [])). eexists.
  split; [cbn; repeat split; lia|]. split; [cbn; apply valid_nil|].
  split; vm_compute; reflexivity.
Qed.
Print Assumptions C03_enum_decodable_refuted.

(** A variant value is decodable exactly when its payload is not zero-length.
    Missing from the full statement: zero-length payloads. *)
Theorem C03_enum_decodable_partial : forall vrs i w,
  wf_base (BEnum vrs) -> ty_variant vrs i w -> canon_variant true vrs i w ->
  exists bs, enc_base (BEnum vrs) (VVariant i w) = Ok bs /\
    (blen bs < 2 ^ 64 ->
     (is_empty w = false -> dec_base (BEnum vrs) bs = Ok (VVariant i w)) /\
     (is_empty w = true -> dec_base (BEnum vrs) bs = Err EShort)).
Proof. exact enum_roundtrip_iff. Qed.
Print Assumptions C03_enum_decodable_partial.

Example C03_example :
  exists bs, enc_base exE (VVariant 1 (VStr [n2b 65])) = Ok bs /\
    dec_base exE bs = Ok (VVariant 1 (VStr [n2b 65])).
Proof. eexists. split; vm_compute; reflexivity. Qed.

(** ** C04 *)
Theorem C04_field_map : forall fs segs segs',
  Forall seg_ok segs -> Forall seg_ok segs' ->
  (forall id, In id (field_ids fs) -> last_body segs id = last_body segs' id) ->
  dec_base (BStruct fs) (ser segs) = dec_base (BStruct fs) (ser segs').
Proof. exact decode_field_map. Qed.
Print Assumptions C04_field_map.

Theorem C04_field_order : forall fs segs segs',
  Forall seg_ok segs -> NoDup (map s_id segs) -> Permutation segs segs' ->
  dec_base (BStruct fs) (ser segs) = dec_base (BStruct fs) (ser segs').
Proof. exact decode_permutation. Qed.
Print Assumptions C04_field_order.

Theorem C04_unknown_fields : forall fs pre mid post,
  Forall seg_ok (pre ++ mid ++ post) ->
  (forall s, In s mid -> ~ In (s_id s) (field_ids fs)) ->
  dec_base (BStruct fs) (ser (pre ++ mid ++ post)) =
  dec_base (BStruct fs) (ser (pre ++ post)).
Proof. exact decode_unknown_fields. Qed.
Print Assumptions C04_unknown_fields.

(** An older reader, knowing only the first fields, reads what the newer one
    reads. *)
Theorem C04_older_reader : forall fs gs buf vs,
  dec_base (BStruct (fapp fs gs)) buf = Ok (VStruct vs) ->
  exists v1 v2, vs = v1 ++ v2 /\ dec_base (BStruct fs) buf = Ok (VStruct v1).
Proof. exact decode_prefix_reader. Qed.
Print Assumptions C04_older_reader.

Ltac seg_ok := split; [reflexivity|split; [cbn; auto 10|reflexivity]].
Ltac segs_ok := repeat (apply Forall_cons; [seg_ok|]); apply Forall_nil.

Definition exTwo : fields :=
  FCons 1 false false (BPrim U8) (FCons 2 false false (BPrim PStr) FNil).
Definition exSegs : list seg := [mkSeg 1 1 [n2b 7]; mkSeg 2 8 [n2b 65; n2b 66]].
Example C04_example :
  Forall seg_ok exSegs /\ NoDup (map s_id exSegs) /\
  dec_base (BStruct exTwo) (ser exSegs) = Ok (VStruct [VInt 7; VStr [n2b 65; n2b 66]]) /\
  dec_base (BStruct exTwo) (ser (rev exSegs ++ [mkSeg 99 2 [n2b 0]])) =
    Ok (VStruct [VInt 7; VStr [n2b 65; n2b 66]]).
Proof.
  split. { segs_ok. }
  split. { repeat constructor; cbn; intuition discriminate. }
  split; vm_compute; reflexivity.
Qed.

(** ** C05 *)
Theorem C05_missing_field_no_value : forall fs buf v,
  dec_base (BStruct fs) buf = Ok v ->
  exists segs, Forall seg_ok segs /\ buf = ser segs /\
    forall id, In id (field_ids fs) -> exists s, In s segs /\ s_id s = id.
Proof. exact decode_requires_all_fields. Qed.
Print Assumptions C05_missing_field_no_value.

Theorem C05_missing_field_error : forall fs segs id,
  Forall seg_ok segs -> complete_fields fs segs ->
  In id (field_ids fs) -> ~ In id (map s_id segs) ->
  exists e, dec_base (BStruct fs) (ser segs) = Err e.
Proof.
  intros fs segs id O Hc Hin Hn.
  destruct (dec_base (BStruct fs) (ser segs)) as [v|e|] eqn:D; [|eauto|].
  - exfalso. cbn [dec_base] in D. rewrite storage_new_ser in D by auto. cbn [bind] in D.
    destruct (dec_fields fs (rev (map pair_of segs))) as [l| |] eqn:Df; try discriminate.
    apply (dec_fields_complete _ _ _ Df id Hin). rewrite sget_last. apply last_body_none; auto.
  - exfalso. destruct complete_no_panic as (H & _). apply (H (BStruct fs) (ser segs)); auto.
    exists segs; auto.
Qed.
Print Assumptions C05_missing_field_error.

Theorem C05_missing_field_kind : forall fs id o r b gs segs,
  Forall seg_ok segs -> ~ In id (map s_id segs) ->
  (exists vs, dec_base (BStruct fs) (ser segs) = Ok vs) ->
  dec_base (BStruct (fapp fs (FCons id o r b gs))) (ser segs) = Err EMissing.
Proof. exact decode_missing_is_error. Qed.
Print Assumptions C05_missing_field_kind.

Example C05_example :
  complete_fields exTwo [mkSeg 1 1 [n2b 7]] /\
  dec_base (BStruct exTwo) (ser [mkSeg 1 1 [n2b 7]]) = Err EMissing.
Proof. split; [cbn; repeat split; auto|vm_compute; reflexivity]. Qed.

(** ** C06 *)
Theorem C06_decode_no_panic_refuted :
  exists b buf, wf_base b /\ dec_base b buf = Panic.
Proof.
  exists (BStruct exTwo), [n2b 1]. split; [|vm_compute; reflexivity].
  cbn. repeat split; try lia; repeat constructor; cbn; intuition discriminate.
Qed.
Print Assumptions C06_decode_no_panic_refuted.

(** Every payload cut inside a field makes every struct decoder panic, and
    nothing else at the top level does. *)
Theorem C06_truncated_payload_panics_refuted : forall fs buf,
  truncated buf -> dec_base (BStruct fs) buf = Panic.
Proof. exact truncated_struct_panics. Qed.
Print Assumptions C06_truncated_payload_panics_refuted.

Theorem C06_field_list_panics_iff_partial : forall buf,
  storage_new buf = Panic <-> truncated buf.
Proof. exact storage_new_panic_iff. Qed.
Print Assumptions C06_field_list_panics_iff_partial.

(** No panic for payloads complete at every level.  Missing from the full
    statement: truncated payloads, and item lengths in the last 8 values of
    the 64-bit range. *)
Theorem C06_decode_no_panic_partial : forall b buf,
  complete b buf -> dec_base b buf <> Panic.
Proof. exact (proj1 complete_no_panic). Qed.
Print Assumptions C06_decode_no_panic_partial.

Example C06_example : complete (BStruct exTwo) (ser exSegs).
Proof.
  exists exSegs. split; [segs_ok|]. split; [reflexivity|].
  cbn. repeat split; auto.
Qed.
Example C06_truncated_example : truncated [n2b 1].
Proof.
  exists [], (mkSeg 1 1 [n2b 7]), [n2b 1], (skipn 1 (ser_seg (mkSeg 1 1 [n2b 7]))).
  split; [constructor|]. split; [seg_ok|].
  repeat split; discriminate.
Qed.

(** ** C07 *)
Theorem C07_injective : forall b v1 v2 bs,
  wf_base b -> ty_base b v1 -> canon true b v1 -> ty_base b v2 -> canon true b v2 ->
  enc_base b v1 = Ok bs -> enc_base b v2 = Ok bs -> blen bs < 2 ^ 64 -> v1 = v2.
Proof. exact codec_injective. Qed.
Print Assumptions C07_injective.

Example C07_example :
  exists b1 b2, enc_base exE (VVariant 0 (VInt 65)) = Ok b1 /\
    enc_base exE (VVariant 1 (VStr [n2b 65])) = Ok b2 /\ b1 <> b2.
Proof. eexists. eexists. split; [vm_compute; reflexivity|]. split; [vm_compute; reflexivity|discriminate]. Qed.

(** ** C08 *)
Theorem C08_string_roundtrip : forall s, valid_utf8 s ->
  enc_base (BPrim PStr) (VStr s) = Ok s /\ dec_base (BPrim PStr) s = Ok (VStr s).
Proof. exact string_roundtrip. Qed.
Print Assumptions C08_string_roundtrip.

Theorem C08_string_total : forall buf,
  exists s, dec_base (BPrim PStr) buf = Ok (VStr s) /\ valid_utf8 s.
Proof. exact string_decode_total. Qed.
Print Assumptions C08_string_total.

Theorem C08_only_invalid_changes : forall buf,
  dec_base (BPrim PStr) buf = Ok (VStr buf) <-> valid_utf8 buf.
Proof.
  intros buf. cbn. unfold dec_prim. cbn. split.
  - intros [= H]. apply lossy_id_iff. exact H.
  - intros H. apply lossy_id_iff in H. congruence.
Qed.
Print Assumptions C08_only_invalid_changes.

Example C08_example :
  valid_utf8 (utf8_enc 233 ++ utf8_enc 128512) /\
  dec_base (BPrim PStr) [n2b 255; n2b 65] = Ok (VStr (utf8_enc 65533 ++ [n2b 65])).
Proof.
  split; [|vm_compute; reflexivity].
  apply valid_app; apply valid_enc; unfold scalar; lia.
Qed.
