(** Proofs about the TypeScript reader, and about schemas and values the
    TypeScript side cannot handle. *)
From Coq Require Import List NArith ZArith Lia Bool.
From Verif Require Import Bytes Utf8 WireModel WireSpec WireProofs FrameModel FrameProofs
  TsModel TsProofs.
Import ListNotations.
Open Scope N_scope.

(** ** Field ids of 256 and more *)

Lemma unle_one_lt c : unle (firstn 1 c) < 256.
Proof. destruct c as [|a c]; cbn; [lia|]. pose proof (b2n_lt a). lia. Qed.

Lemma ts_storage_next_low rest id body rest' :
  ts_storage_next rest = Ok (id, body, rest') -> id < 256.
Proof.
  unfold ts_storage_next.
  destruct (take 2 rest) as [[idb r1]|]; [|discriminate].
  destruct (take 1 r1) as [[rk r2]|]; [|discriminate].
  destruct (rank_width _) as [w|]; [|discriminate].
  destruct (take w r2) as [[lb r3]|]; [|discriminate].
  destruct (blen r3 <? unle lb); [discriminate|].
  intros [= <- _ _]. apply unle_one_lt.
Qed.

Lemma ts_storage_loop_low fuel : forall rest m m',
  Forall (fun e => fst e < 256) m -> ts_storage_loop fuel rest m = Ok m' ->
  Forall (fun e => fst e < 256) m'.
Proof.
  induction fuel as [|fuel IH]; intros rest m m' Hm H.
  - destruct rest; cbn in H; [injection H as <-; auto|discriminate].
  - destruct rest as [|c rest]; cbn [ts_storage_loop] in H; [injection H as <-; auto|].
    destruct (ts_storage_next (c :: rest)) as [[[id body] rest']| |] eqn:E; try discriminate.
    cbn [bind] in H. eapply IH; [|exact H]. constructor; auto.
    cbn. eapply ts_storage_next_low; eauto.
Qed.

Lemma sget_high m id : Forall (fun e => fst e < 256) m -> 256 <= id -> sget m id = None.
Proof.
  induction 1 as [|[i b] m Hi Hm IH]; intros Hid; [reflexivity|].
  cbn in *. destruct (N.eqb_spec i id); [lia|auto].
Qed.

Lemma ts_dec_fields_high fs m id :
  Forall (fun e => fst e < 256) m -> In id (field_ids fs) -> 256 <= id ->
  forall vs, ts_dec_fields fs m <> Ok vs.
Proof.
  intros Hm. induction fs as [|i o r b fs IH]; cbn [field_ids]; [contradiction|].
  intros [->|Hin] Hid vs H; cbn [ts_dec_fields] in H.
  - rewrite sget_high in H by auto. discriminate.
  - match type of H with bind ?e _ = _ => destruct e as [v| |] eqn:E end; try discriminate.
    cbn [bind] in H. destruct (ts_dec_fields fs m) as [ws| |] eqn:E2; try discriminate.
    eapply IH; eauto.
Qed.

Lemma ts_high_id_undecodable fs id :
  In id (field_ids fs) -> 256 <= id -> forall bs v, ts_dec_base (BStruct fs) bs <> Ok v.
Proof.
  intros Hin Hid bs v H. cbn [ts_dec_base] in H. unfold ts_storage_new in H.
  destruct (ts_storage_loop (length bs) bs []) as [m| |] eqn:E; try discriminate.
  cbn [bind] in H.
  destruct (ts_dec_fields fs m) as [vs| |] eqn:E2; try discriminate.
  eapply ts_dec_fields_high; [|exact Hin|exact Hid|exact E2].
  eapply ts_storage_loop_low; [|exact E]. constructor.
Qed.

(** ** The reader *)

(** no complete packet at the front *)
Definition no_packet (t : bytes) : Prop :=
  forall p r, packet_ok p -> t <> wire p ++ r.

Section TsReader.
Context {M : Type}.
Variable dm : N -> bytes -> res M err.
Variable sig : N.

(** expected signature and a decoder that does not throw *)
Definition quiet (p : packet) : Prop :=
  p_sig p = sig /\ dm (p_id p) (p_body p) <> Panic.
Definition foreign (p : packet) : Prop := p_sig p <> sig.
Definition throwing (p : packet) : Prop :=
  p_sig p = sig /\ dm (p_id p) (p_body p) = Panic.

Lemma ts_step_packet p r q : packet_ok p ->
  ts_step dm sig (wire p ++ r) q =
  if p_sig p =? sig then
    match dm (p_id p) (p_body p) with
    | Ok m => RNext false r (q ++ [(hdr p, m)])
    | Err _ => RNext true r q
    | Panic => RThrow
    end
  else RStay.
Proof.
  intros Hp. unfold ts_step, has_header, header_len.
  rewrite get_header_wire by auto. rewrite blen_app, wire_blen.
  cbn [hdr h_len h_sig h_id].
  destruct (N.leb_spec 26 (blen (p_body p) + 26 + blen r)); [cbn [negb]|lia].
  destruct (N.ltb_spec (blen (p_body p) + 26 + blen r) (blen (p_body p) + 26)); [lia|].
  rewrite skipn_26_wire. unfold blen. rewrite Nnat.Nat2N.id, firstn_app_exact, skipn_app_exact.
  destruct (p_sig p =? sig); reflexivity.
Qed.

Lemma ts_step_quiet p r q : packet_ok p -> quiet p ->
  ts_step dm sig (wire p ++ r) q = RNext (badb dm sig p) r (q ++ deliver dm sig p).
Proof.
  intros Hp (Hs & Hn). rewrite ts_step_packet by auto. unfold badb, deliver.
  rewrite Hs, N.eqb_refl.
  destruct (dm (p_id p) (p_body p)); [reflexivity| |contradiction].
  rewrite app_nil_r. reflexivity.
Qed.

Lemma ts_step_foreign p r q : packet_ok p -> foreign p ->
  ts_step dm sig (wire p ++ r) q = RStay.
Proof.
  intros Hp Hf. rewrite ts_step_packet by auto.
  destruct (N.eqb_spec (p_sig p) sig); [contradiction|reflexivity].
Qed.

Lemma ts_step_throwing p r q : packet_ok p -> throwing p ->
  ts_step dm sig (wire p ++ r) q = RThrow.
Proof.
  intros Hp (Hs & Hd). rewrite ts_step_packet, Hs, N.eqb_refl, Hd by auto. reflexivity.
Qed.

Lemma front b : blen b < 2 ^ 64 ->
  (26 <= blen b /\ h_len (get_header b) + 26 <= blen b /\
   exists p r, packet_ok p /\ b = wire p ++ r) \/
  ((blen b < 26 \/ blen b < h_len (get_header b) + 26) /\ no_packet b).
Proof.
  intros Hb. destruct (N.leb_spec 26 (blen b)) as [H|H].
  - destruct (N.leb_spec (h_len (get_header b) + 26) (blen b)) as [H'|H'].
    + left. destruct (unpack b H H' Hb) as (p & Hp & _ & E & _).
      split; [auto|]. split; [auto|]. eauto.
    + right. split; [auto|]. intros p r Hp E. subst b.
      rewrite get_header_wire, blen_app, wire_blen in H' by auto. cbn in H'. lia.
  - right. split; [auto|]. intros p r Hp E. subst b.
    rewrite blen_app, wire_blen in H. lia.
Qed.

Lemma ts_step_none b q : blen b < 2 ^ 64 -> no_packet b -> ts_step dm sig b q = RBreak.
Proof.
  intros Hb Hn. destruct (front b Hb) as [(_ & _ & p & r & Hp & E)|(H & _)].
  - exfalso. eapply Hn; eauto.
  - unfold ts_step, has_header, header_len.
    destruct (N.leb_spec 26 (blen b)); [cbn [negb]|reflexivity].
    destruct (N.ltb_spec (blen b) (h_len (get_header b) + 26)); [reflexivity|lia].
Qed.

(** Every buffer is a run of quiet packets followed by nothing complete, or by
    a foreign or throwing packet. *)
Lemma decompose n : forall b, (length b <= n)%nat -> blen b < 2 ^ 64 ->
  exists ps r, Forall packet_ok ps /\ Forall quiet ps /\ b = stream ps ++ r /\
    (no_packet r \/
     exists p r', packet_ok p /\ r = wire p ++ r' /\ (foreign p \/ throwing p)).
Proof.
  induction n as [|n IH]; intros b Hn Hb.
  - assert (b = []) by (destruct b; cbn in Hn; [auto|lia]). subst.
    exists [], []. repeat split; auto. left. intros p r _ E.
    symmetry in E. eapply wire_nonempty; exact E.
  - destruct (front b Hb) as [(_ & _ & p & r & Hp & E)|(_ & H)].
    + destruct (N.eq_dec (p_sig p) sig) as [Hs|Hs].
      * destruct (dm (p_id p) (p_body p)) eqn:Ed.
        3:{ exists [], b. repeat split; auto. right. exists p, r.
            split; [auto|]. split; [auto|]. right. split; auto. }
        all: assert (Q : quiet p) by (split; [auto|congruence]);
          assert (L : (length r < length b)%nat) by
            (subst b; rewrite app_length; pose proof (wire_blen p) as W; unfold blen in W; lia);
          destruct (IH r) as (ps & r' & H1 & H2 & H3 & H4);
          [lia|unfold blen in *; lia|];
          exists (p :: ps), r'; (split; [constructor; auto|]); (split; [constructor; auto|]);
          (split; [cbn; rewrite <- app_assoc, E, H3; reflexivity|auto]).
      * exists [], b. repeat split; auto. right. exists p, r.
        split; [auto|]. split; [auto|]. left. exact Hs.
    + exists [], b. repeat split; auto.
Qed.

(** The loop eats the quiet packets. *)
Lemma ts_loop_quiet ps : forall f errs r q,
  Forall packet_ok ps -> Forall quiet ps ->
  ts_loop dm sig (length ps + f) errs (stream ps ++ r) q =
  ts_loop dm sig f (errs + count_bad dm sig ps) r (q ++ flat_map (deliver dm sig) ps).
Proof.
  induction ps as [|p ps IH]; intros f errs r q Hok Hq.
  - cbn. rewrite app_nil_r, Nat.add_0_r. reflexivity.
  - inversion Hok as [|? ? Hp Hok']; inversion Hq as [|? ? Hqp Hq']; subst.
    cbn [length plus ts_loop stream flat_map]. rewrite <- app_assoc.
    rewrite ts_step_quiet by auto. fold (stream ps). rewrite IH by auto.
    rewrite <- app_assoc. f_equal.
    change (p :: ps) with ([p] ++ ps). rewrite count_bad_app.
    unfold count_bad at 2. cbn. destruct (badb dm sig p); cbn; lia.
Qed.

Lemma ts_loop_foreign f : forall errs p r q, packet_ok p -> foreign p ->
  ts_loop dm sig f errs (wire p ++ r) q = None.
Proof.
  induction f as [|f IH]; intros; [reflexivity|].
  cbn [ts_loop]. rewrite ts_step_foreign by auto. auto.
Qed.

Lemma ts_loop_mono f : forall errs b q o, ts_loop dm sig f errs b q = Some o ->
  forall f', (f <= f')%nat -> ts_loop dm sig f' errs b q = Some o.
Proof.
  induction f as [|f IH]; intros errs b q o H f' Hf; [discriminate|].
  destruct f' as [|f']; [lia|]. cbn [ts_loop] in *.
  destruct (ts_step dm sig b q); auto; eapply IH; eauto; lia.
Qed.

Lemma ts_returns_fun st data o1 st1 o2 st2 :
  ts_returns dm sig st data o1 st1 -> ts_returns dm sig st data o2 st2 ->
  o1 = o2 /\ st1 = st2.
Proof.
  intros (f1 & H1) (f2 & H2). unfold ts_chunk in *.
  apply (ts_loop_mono f1 _ _ _ _) with (f' := Nat.max f1 f2) in H1; [|lia].
  apply (ts_loop_mono f2 _ _ _ _) with (f' := Nat.max f1 f2) in H2; [|lia].
  rewrite H1 in H2. injection H2 as -> ->. auto.
Qed.

(** One call, all three outcomes. *)
Lemma ts_chunk_done st data ps tail :
  Forall packet_ok ps -> Forall quiet ps -> no_packet tail -> blen tail < 2 ^ 64 ->
  rb_buf st ++ data = stream ps ++ tail ->
  ts_returns dm sig st data (TReturned (count_bad dm sig ps))
    (mkBuf tail (rb_queue st ++ flat_map (deliver dm sig) ps)).
Proof.
  intros Hok Hq Ht Hl E. exists (length ps + 1)%nat. unfold ts_chunk. rewrite E.
  rewrite ts_loop_quiet by auto. cbn [ts_loop]. rewrite ts_step_none by auto. reflexivity.
Qed.

Lemma ts_chunk_throws st data ps p r :
  Forall packet_ok ps -> Forall quiet ps -> packet_ok p -> throwing p ->
  rb_buf st ++ data = stream ps ++ wire p ++ r ->
  ts_returns dm sig st data TThrown
    (mkBuf (wire p ++ r) (rb_queue st ++ flat_map (deliver dm sig) ps)).
Proof.
  intros Hok Hq Hp Ht E. exists (length ps + 1)%nat. unfold ts_chunk. rewrite E.
  rewrite ts_loop_quiet by auto. cbn [ts_loop]. rewrite ts_step_throwing by auto. reflexivity.
Qed.

Lemma ts_chunk_foreign st data ps p r :
  Forall packet_ok ps -> Forall quiet ps -> packet_ok p -> foreign p ->
  rb_buf st ++ data = stream ps ++ wire p ++ r -> ts_diverges dm sig st data.
Proof.
  intros Hok Hq Hp Hf E fuel. unfold ts_chunk. rewrite E.
  destruct (ts_loop dm sig fuel 0 (stream ps ++ wire p ++ r) (rb_queue st)) as [o|] eqn:H;
    [|reflexivity]. exfalso.
  apply ts_loop_mono with (f' := (length ps + fuel)%nat) in H; [|lia].
  rewrite ts_loop_quiet, ts_loop_foreign in H by auto. discriminate.
Qed.

Lemma ts_diverges_iff st data : blen (rb_buf st ++ data) < 2 ^ 64 ->
  ts_diverges dm sig st data <->
  exists ps p r, Forall packet_ok ps /\ Forall quiet ps /\ packet_ok p /\ foreign p /\
    rb_buf st ++ data = stream ps ++ wire p ++ r.
Proof.
  intros Hb. split.
  - intros D. destruct (decompose _ _ (le_n _) Hb) as (ps & r & Hok & Hq & E & H).
    destruct H as [H|(p & r' & Hp & -> & [Hf|Ht])].
    + exfalso. destruct (ts_chunk_done st data ps r) as (f & C); auto.
      { rewrite E, blen_app in Hb. lia. }
      rewrite D in C. discriminate.
    + exists ps, p, r'. auto.
    + exfalso. destruct (ts_chunk_throws st data ps p r') as (f & C); auto.
      rewrite D in C. discriminate.
  - intros (ps & p & r & Hok & Hq & Hp & Hf & E). eapply ts_chunk_foreign; eauto.
Qed.

(** After an exception the reader is stuck. *)
Lemma ts_step_throw_app b q d : ts_step dm sig b q = RThrow -> forall q', ts_step dm sig (b ++ d) q' = RThrow.
Proof.
  unfold ts_step, has_header, header_len. intros H q'. rewrite blen_app.
  destruct (N.leb_spec 26 (blen b)) as [H26|H26]; cbn [negb] in H; [|discriminate].
  destruct (N.leb_spec 26 (blen b + blen d)); [cbn [negb]|lia].
  rewrite get_header_app by auto.
  destruct (N.ltb_spec (blen b) (h_len (get_header b) + 26)) as [|Hl]; [discriminate|].
  destruct (N.ltb_spec (blen b + blen d) (h_len (get_header b) + 26)); [lia|].
  destruct (h_sig (get_header b) =? sig); [cbn [negb] in *|discriminate].
  unfold blen in *.
  rewrite (skipn_app 26 b d), firstn_app, skipn_length.
  replace (N.to_nat (h_len (get_header b)) - (length b - 26))%nat with O by lia.
  rewrite firstn_O, app_nil_r.
  destruct (dm (h_id (get_header b)) _); congruence.
Qed.

Lemma ts_loop_thrown fuel : forall errs b q st,
  ts_loop dm sig fuel errs b q = Some (TThrown, st) -> ts_step dm sig (rb_buf st) (rb_queue st) = RThrow.
Proof.
  induction fuel as [|fuel IH]; intros errs b q st H; [discriminate|].
  cbn [ts_loop] in H. destruct (ts_step dm sig b q) eqn:E; try discriminate; eauto.
  injection H as <-. exact E.
Qed.

Lemma ts_thrown_stuck st data st' : ts_returns dm sig st data TThrown st' ->
  forall more, ts_returns dm sig st' more TThrown (mkBuf (rb_buf st' ++ more) (rb_queue st')).
Proof.
  intros (f & H) more. exists 1%nat. unfold ts_chunk. cbn [ts_loop].
  apply ts_loop_thrown in H. rewrite (ts_step_throw_app _ _ more H). reflexivity.
Qed.

(** ** A receiver fed chunk after chunk *)
Inductive ts_feeds : rbuf M -> list bytes -> list ts_outcome -> rbuf M -> Prop :=
| feeds_nil st : ts_feeds st [] [] st
| feeds_cons st c o st1 cs os st2 :
    ts_returns dm sig st c o st1 -> ts_feeds st1 cs os st2 ->
    ts_feeds st (c :: cs) (o :: os) st2.

Lemma ts_feeds_fun st cs os1 st1 : ts_feeds st cs os1 st1 ->
  forall os2 st2, ts_feeds st cs os2 st2 -> os1 = os2 /\ st1 = st2.
Proof.
  induction 1 as [|st c o st1 cs os st2 H1 H2 IH]; intros os2 st3 H; inversion H; subst; auto.
  destruct (ts_returns_fun _ _ _ _ _ _ H1 H5) as (-> & ->).
  destruct (IH _ _ H8) as (-> & ->). auto.
Qed.

(** A prefix of a packet stream is a packet stream with an incomplete tail. *)
Lemma stream_prefix ps : forall x rem tail,
  Forall packet_ok ps -> no_packet tail -> x ++ rem = stream ps ++ tail ->
  exists j x', x = stream (firstn j ps) ++ x' /\
    x' ++ rem = stream (skipn j ps) ++ tail /\ no_packet x'.
Proof.
  induction ps as [|p ps IH]; intros x rem tail Hok Ht E.
  - exists O, x. split; [reflexivity|]. split; [exact E|].
    intros p r Hp C. cbn in E. apply (Ht p (r ++ rem) Hp). rewrite <- E, C, app_assoc. reflexivity.
  - inversion Hok as [|? ? Hp Hok']; subst.
    destruct (Nat.le_gt_cases (length (wire p)) (length x)) as [L|L].
    + cbn [stream flat_map] in E. rewrite <- app_assoc in E. fold (stream ps) in E.
      destruct (app_split_len x rem (wire p) (stream ps ++ tail) E L) as (e & -> & E').
      symmetry in E'. destruct (IH e rem tail Hok' Ht E') as (j & x' & -> & H2 & H3).
      exists (S j), x'. cbn [firstn skipn stream flat_map]. rewrite <- app_assoc. auto.
    + exists O, x. split; [reflexivity|]. split; [exact E|].
      intros p' r' Hp' C. subst x. cbn [stream flat_map] in E. rewrite <- !app_assoc in E.
      assert (G : hdr p' = hdr p).
      { rewrite <- (get_header_wire p' (r' ++ rem)) by auto. rewrite E.
        apply get_header_wire. auto. }
      unfold hdr in G. injection G as _ _ _ _ G.
      pose proof (wire_blen p) as W. pose proof (wire_blen p') as W'.
      rewrite app_length in L. unfold blen in *. lia.
Qed.

Lemma skipn_ok j ps : Forall packet_ok ps -> Forall packet_ok (skipn j ps).
Proof. apply Forall_skipn. Qed.

Lemma ts_feed_all cs : forall ps tail st,
  Forall packet_ok ps -> Forall quiet ps -> no_packet tail -> blen (stream ps ++ tail) < 2 ^ 64 ->
  (exists b, rb_buf st = b /\ no_packet b) ->
  rb_buf st ++ concat cs = stream ps ++ tail ->
  exists ns, ts_feeds st cs (map TReturned ns)
      (mkBuf tail (rb_queue st ++ flat_map (deliver dm sig) ps)) /\
    list_sum ns = count_bad dm sig ps.
Proof.
  induction cs as [|c cs IH]; intros ps tail st Hok Hq Ht Hl (b & Hb & Hnb) E.
  - cbn [concat] in E. rewrite app_nil_r in E.
    assert (ps = []).
    { destruct ps as [|p ps]; [reflexivity|]. exfalso.
      inversion Hok; subst. apply (Hnb p (stream ps ++ tail)); auto.
      rewrite E. cbn. rewrite <- app_assoc. reflexivity. }
    subst ps. exists []. cbn in *. rewrite app_nil_r. destruct st as [b0 q0]. cbn in *. subst.
    split; [constructor|reflexivity].
  - cbn [concat] in E. rewrite app_assoc in E.
    destruct (stream_prefix ps (rb_buf st ++ c) (concat cs) tail Hok Ht E)
      as (j & x' & E1 & E2 & Hx).
    assert (Hoj : Forall packet_ok (firstn j ps)) by
      (rewrite <- (firstn_skipn j ps) in Hok; apply Forall_app in Hok; tauto).
    assert (Hqj : Forall quiet (firstn j ps)) by
      (rewrite <- (firstn_skipn j ps) in Hq; apply Forall_app in Hq; tauto).
    assert (Hl' : blen (stream (skipn j ps) ++ tail) < 2 ^ 64).
    { assert (blen (stream (firstn j ps) ++ (x' ++ concat cs)) < 2 ^ 64).
      { rewrite app_assoc, <- E1, E. auto. }
      rewrite E2, blen_app in H. lia. }
    assert (R : ts_returns dm sig st c (TReturned (count_bad dm sig (firstn j ps)))
                  (mkBuf x' (rb_queue st ++ flat_map (deliver dm sig) (firstn j ps)))).
    { apply ts_chunk_done; auto.
      assert (blen (x' ++ concat cs) < 2 ^ 64) by (rewrite E2; auto).
      rewrite blen_app in H. lia. }
    destruct (IH (skipn j ps) tail
                 (mkBuf x' (rb_queue st ++ flat_map (deliver dm sig) (firstn j ps))))
      as (ns & F & S); auto.
    { apply Forall_skipn; auto. }
    { apply Forall_skipn; auto. }
    { cbn. eauto. }
    exists (count_bad dm sig (firstn j ps) :: ns). split.
    + cbn [map]. econstructor; [exact R|]. cbn [rb_queue] in F.
      rewrite <- app_assoc, <- flat_map_app, firstn_skipn in F. exact F.
    + transitivity (count_bad dm sig (firstn j ps) + list_sum ns)%nat; [reflexivity|].
      rewrite S.
      rewrite <- count_bad_app, firstn_skipn. reflexivity.
Qed.

End TsReader.
