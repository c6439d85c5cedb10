(** Properties C09-C12: framing of messages in a byte stream (Rust). *)
From Coq Require Import List NArith ZArith Lia Bool.
From Verif Require Import Bytes Utf8 WireModel WireSpec WireProofs WireTheorems
  FrameModel FrameProofs PropWire.
Import ListNotations.
Open Scope N_scope.

(** ** C09 *)

(** However the stream is cut, every call succeeds, the queue holds one entry
    per packet with its header and decoded message, and the buffer holds only
    the unfinished tail. *)
Theorem C09_chunking_independence :
  forall (M : Type) (dm : N -> bytes -> res M err) (sig : N) ps tail cs,
  Forall packet_ok ps -> Forall (good dm sig) ps -> incomplete tail ->
  concat cs = stream ps ++ tail ->
  exists os ms, feed dm sig rbuf_new cs = (os, mkBuf tail (combine (map hdr ps) ms)) /\
    Forall (eq COk) os /\
    Forall2 (fun p m => dm (p_id p) (p_body p) = Ok m) ps ms.
Proof.
  intros M dm sig ps tail cs Hok Hg Ht E.
  destruct (framing_chunking_independent dm sig ps tail cs Hok Hg Ht E) as (os & Hf & Hos).
  destruct (deliver_goods dm sig ps Hg) as (ms & Hd & Hm).
  exists os, ms. rewrite Hf, Hd. auto.
Qed.
Print Assumptions C09_chunking_independence.

(** Draining the queue returns it front to back, each message once. *)
Theorem C09_queue_fifo : forall (M : Type) (q : list (header * M)) b n,
  (length q <= n)%nat -> drain n (mkBuf b q) = (q, mkBuf b []).
Proof. intros M q b n H. apply drain_fifo; auto. Qed.
Print Assumptions C09_queue_fifo.

(** End to end with the codec: a sender packs values of declared message types,
    the receiver gets exactly these values. *)
Record msg := mkMsg { m_id : N; m_seq : N; m_ts : N; m_val : val }.

Definition msg_ok (table : list (N * base)) (m : msg) (body : bytes) : Prop :=
  exists b, In (m_id m, b) table /\ wf_base b /\ ty_base b (m_val m) /\
    canon true b (m_val m) /\ enc_base b (m_val m) = Ok body /\
    m_id m < 2 ^ 32 /\ m_seq m < 2 ^ 32 /\ m_ts m < 2 ^ 64 /\ blen body + 26 < 2 ^ 64.

Lemma get_msg_in table id b buf v :
  NoDup (map fst table) -> In (id, b) table -> dec_base b buf = Ok v ->
  get_msg table id buf = Ok (id, v).
Proof.
  induction table as [|[i b0] table IH]; intros Nd Hin Hd; [contradiction|].
  cbn [map fst] in Nd. inversion Nd as [|? ? Hni Nd']; subst. cbn [get_msg].
  destruct Hin as [[= -> ->]|Hin].
  - rewrite N.eqb_refl, Hd. reflexivity.
  - destruct (N.eqb_spec i id) as [->|_]; [|auto].
    exfalso. apply Hni. apply (in_map fst) in Hin. exact Hin.
Qed.

Theorem C09_end_to_end : forall table sig ms bodies cs,
  NoDup (map fst table) -> sig < 2 ^ 16 ->
  Forall2 (msg_ok table) ms bodies ->
  concat cs = concat (map (fun mb => pack (m_id (fst mb)) sig (m_seq (fst mb)) (m_ts (fst mb)) (snd mb))
                          (combine ms bodies)) ->
  exists os, feed (get_msg table) sig rbuf_new cs =
      (os, mkBuf [] (map (fun mb => (mkHeader (m_id (fst mb)) sig (m_seq (fst mb)) (m_ts (fst mb))
                                              (blen (snd mb)),
                                     (m_id (fst mb), m_val (fst mb))))
                         (combine ms bodies))) /\
    Forall (eq COk) os.
Proof.
  intros table sig ms bodies cs Nd Hsig H2 E.
  set (ps := map (fun mb => mkPacket (m_id (fst mb)) sig (m_seq (fst mb)) (m_ts (fst mb)) (snd mb))
                 (combine ms bodies)).
  assert (Gd : Forall (fun p => packet_ok p /\ good (get_msg table) sig p) ps /\
    flat_map (deliver (get_msg table) sig) ps =
      map (fun mb => (mkHeader (m_id (fst mb)) sig (m_seq (fst mb)) (m_ts (fst mb)) (blen (snd mb)),
                      (m_id (fst mb), m_val (fst mb)))) (combine ms bodies)).
  { subst ps. clear E. induction H2 as [|m body ms bodies Hm H2 IH]; [cbn; auto|].
    destruct IH as (IH1 & IH2). cbn [combine map flat_map fst snd].
    destruct Hm as (b & Hin & Wb & Tb & Cb & Eb & B1 & B2 & B3 & B4).
    destruct (codec_roundtrip b (m_val m) Wb Tb Cb) as (bs & Eb' & D).
    rewrite Eb in Eb'. injection Eb' as <-.
    assert (G : get_msg table (m_id m) body = Ok (m_id m, m_val m)).
    { eapply get_msg_in; eauto. apply D. lia. }
    split.
    - constructor; [|auto]. split.
      + unfold packet_ok. cbn [p_id p_sig p_seq p_ts p_body]. auto.
      + split; [reflexivity|]. cbn [p_id p_body]. eauto.
    - rewrite IH2. unfold deliver. cbn [p_id p_body p_sig]. rewrite N.eqb_refl, G. reflexivity. }
  destruct Gd as (Gd & Del).
  destruct (framing_chunking_independent (get_msg table) sig ps [] cs) as (os & Hf & Hos).
  - eapply Forall_impl; [|exact Gd]. cbv beta. intros p (? & ?); auto.
  - eapply Forall_impl; [|exact Gd]. cbv beta. intros p (? & ?); auto.
  - left. reflexivity.
  - rewrite app_nil_r, E. subst ps. unfold stream. rewrite flat_map_concat_map, map_map. reflexivity.
  - exists os. rewrite Hf, Del. auto.
Qed.
Print Assumptions C09_end_to_end.

Definition exTable : list (N * base) := [(5, exE); (7, exS)].
Definition exMsgs : list msg :=
  [mkMsg 7 1 1000 exV; mkMsg 5 0 1001 (VVariant 0 (VInt 9))].
Example C09_example : exists bodies cs os q,
  NoDup (map fst exTable) /\ Forall2 (msg_ok exTable) exMsgs bodies /\
  (length cs = 135)%nat /\ Forall (fun c => length c = 1%nat) cs /\
  feed (get_msg exTable) 77 rbuf_new cs = (os, mkBuf [] q) /\
  map (fun hm => snd (snd hm)) q = [exV; VVariant 0 (VInt 9)].
Proof.
  assert (X : exists body, enc_base exS exV = Ok body /\ blen body = 80).
  { eexists. split; vm_compute; reflexivity. }
  exists [match enc_base exS exV with Ok x => x | _ => [] end; [n2b 0; n2b 0; n2b 9]].
  exists (map (fun b => [b])
    (pack 7 77 1 1000 (match enc_base exS exV with Ok x => x | _ => [] end) ++
     pack 5 77 0 1001 [n2b 0; n2b 0; n2b 9])).
  eexists. eexists. split; [repeat constructor; cbn; intuition discriminate|].
  split.
  - constructor; [|constructor; [|constructor]].
    + exists exS. split; [cbn; auto|]. split; [exact exS_wf|]. split; [exact exV_ty|].
      split; [exact exV_canon|]. split; [vm_compute; reflexivity|].
      repeat split; vm_compute; reflexivity.
    + exists exE. split; [cbn; auto|]. split; [cbn; repeat split; lia|].
      split; [cbn; lia|]. split; [cbn; auto|].
      repeat split; vm_compute; reflexivity.
  - split; [vm_compute; reflexivity|]. split.
    + apply Forall_map. apply Forall_forall. reflexivity.
    + split; vm_compute; reflexivity.
Qed.

(** ** C10 *)

(** a decoder accepting only empty bodies, enough for the witnesses below *)
Definition dm0 (id : N) (body : bytes) : res unit err :=
  match body with [] => Ok tt | _ => Err EShort end.

(** A bad packet and a good one arrive in one chunk: the good one is complete
    but stays unread. *)
Theorem C10_nothing_left_unread_refuted :
  exists bad_p good_p o st,
    packet_ok bad_p /\ packet_ok good_p /\ bad dm0 1 bad_p /\ good dm0 1 good_p /\
    chunk dm0 1 rbuf_new (wire bad_p ++ wire good_p) = (o, st) /\
    rb_buf st = wire good_p /\ rb_queue st = [].
Proof.
  exists (mkPacket 3 2 0 0 []), (mkPacket 3 1 0 0 []). eexists. eexists.
  split; [vm_compute; auto|]. split; [vm_compute; auto|].
  split; [left; discriminate|]. split; [split; [reflexivity|eexists; reflexivity]|].
  split; [vm_compute; reflexivity|]. split; reflexivity.
Qed.
Print Assumptions C10_nothing_left_unread_refuted.

(** After any call that reports success the buffer contains no complete packet.
    Missing from the full statement: calls that report an error. *)
Theorem C10_nothing_left_unread_partial :
  forall (M : Type) (dm : N -> bytes -> res M err) sig st data st',
  chunk dm sig st data = (COk, st') ->
  forall p r, packet_ok p -> rb_buf st' <> wire p ++ r.
Proof. intros M dm sig st data st' H. eapply loop_ok_no_packet. exact H. Qed.
Print Assumptions C10_nothing_left_unread_partial.

Example C10_example : exists st,
  chunk dm0 1 rbuf_new (wire (mkPacket 3 1 0 0 []) ++ [n2b 9]) = (COk, st) /\
  rb_buf st = [n2b 9] /\ length (rb_queue st) = 1%nat.
Proof. eexists. split; [vm_compute; reflexivity|]. split; reflexivity. Qed.

(** ** C11 *)
Theorem C11_resync :
  forall (M : Type) (dm : N -> bytes -> res M err) sig ps tail cs n,
  Forall packet_ok ps -> Forall (calm dm sig) ps -> incomplete tail ->
  concat cs = stream ps ++ tail -> (count_bad dm sig ps < n)%nat ->
  exists os, feed dm sig rbuf_new (cs ++ repeat [] n) =
      (os, mkBuf tail (flat_map (deliver dm sig) ps)) /\
    ~ In CPanic os /\ count_err os = count_bad dm sig ps.
Proof. intros M dm sig. apply framing_resync. Qed.
Print Assumptions C11_resync.

Example C11_example :
  let bad1 := mkPacket 3 2 0 0 [] in
  let bad2 := mkPacket 3 1 0 0 [n2b 8] in
  let ok := mkPacket 4 1 6 7 [] in
  let ps := [bad1; ok; bad2; ok] in
  Forall packet_ok ps /\ Forall (calm dm0 1) ps /\ count_bad dm0 1 ps = 2%nat /\
  snd (feed dm0 1 rbuf_new ([stream ps] ++ repeat [] 3)) = mkBuf [] [(hdr ok, tt); (hdr ok, tt)].
Proof.
  cbv zeta. split; [repeat constructor|]. split.
  { repeat constructor; intros _; discriminate. }
  split; vm_compute; reflexivity.
Qed.

(** ** C12 *)
Theorem C12_no_panic_refuted :
  exists data, fst (chunk dm0 1 rbuf_new data) = CPanic.
Proof.
  exists (le 4 3 ++ le 2 1 ++ le 4 0 ++ le 8 0 ++ le 8 (2 ^ 64 - 1)).
  vm_compute. reflexivity.
Qed.
Print Assumptions C12_no_panic_refuted.

(** A panic has one of two causes: a header announcing a length in the last 26
    values of the 64-bit range, or a body on which the message decoder itself
    panics (C06).  Missing from the full statement: these two causes. *)
Theorem C12_no_panic_partial :
  forall (M : Type) (dm : N -> bytes -> res M err) sig st data st',
  blen (rb_buf st ++ data) < 2 ^ 64 ->
  chunk dm sig st data = (CPanic, st') ->
  exists ps r, Forall packet_ok ps /\ Forall (good dm sig) ps /\
    rb_buf st ++ data = stream ps ++ r /\
    ((26 <= blen r /\ 2 ^ 64 <= unle (slice 18 8 r) + 26) \/
     (exists p r', packet_ok p /\ r = wire p ++ r' /\ p_sig p = sig /\
        dm (p_id p) (p_body p) = Panic)).
Proof.
  intros M dm sig st data st' Hb H. unfold chunk in H.
  eapply loop_panic; [|exact Hb|exact H]. lia.
Qed.
Print Assumptions C12_no_panic_partial.

(** In particular no well-formed stream panics, in any chunking. *)
Theorem C12_streams_partial :
  forall (M : Type) (dm : N -> bytes -> res M err) sig ps tail cs,
  Forall packet_ok ps -> Forall (calm dm sig) ps -> incomplete tail ->
  concat cs = stream ps ++ tail ->
  ~ In CPanic (fst (feed dm sig rbuf_new cs)).
Proof.
  intros M dm sig ps tail cs Hok Hc Ht E.
  destruct (feed_spec dm sig cs ps [] [] [] tail Hok Hc Ht)
    as (os & b & q & j & Hf & _ & _ & _ & Hnp & _).
  { cbn. rewrite app_nil_r. exact E. }
  unfold rbuf_new. rewrite Hf. exact Hnp.
Qed.
Print Assumptions C12_streams_partial.

Example C12_example :
  fst (chunk dm0 1 rbuf_new (le 4 3 ++ le 2 1 ++ le 4 0 ++ le 8 0 ++ le 8 (2 ^ 64 - 27))) = COk.
Proof. vm_compute. reflexivity. Qed.
