(** The invariant of a TypeScript producer and a Rust consumer that are connected (C97). *)
From Coq Require Import List NArith Arith Bool Lia.
From Verif Require Import Bytes WireModel FrameModel FrameProofs TsModel TsReader.
From Verif Require ConsumerModel ConsumerSpec PropConsumerLife SystemModel SystemProofs TsSystemModel TsSystemProofs.
From Verif Require Import TsServerModel TsServerProofs TsServerTrace PropTsServer MixModel.
Import ListNotations.
Open Scope N_scope.

Section Proofs.
Variable QE : qenv.
Variable CE : ConsumerModel.cenv.
Variable K : mcodec QE CE.
Hypothesis OK : compatible QE CE K.
Variable u : N.
Variable o : nat.
Local Notation f_q := (f_q QE CE). Local Notation f_qt := (f_qt QE CE). Local Notation f_c := (f_c QE CE).
Local Notation f_ls := (f_ls QE CE). Local Notation f_ct := (f_ct QE CE). Local Notation f_uw := (f_uw QE CE). Local Notation f_dw := (f_dw QE CE).
Local Notation frame := TsSystemModel.frame.

Definition of_server (q : packet) : Prop := exists n p ts, q = frame (q_sig QE) (f_down _ _ K p) n ts.

Record inv (y : mix QE CE) (ups downs : list packet) : Prop := mkInv {
  i_q : exists ls, qrun QE ls (f_q y) (f_qt y);
  i_o : In (OConnected u o) (f_qt y);
  i_map : p_map (f_q y) u = Some o;
  i_run : ConsumerModel.runs CE (f_ls y) (ConsumerModel.start CE) = Some (f_c y, f_ct y);
  i_downs : Forall of_server downs;
  i_down : PropConsumerLife.delivered CE (f_ls y) ++ f_dw y = stream downs;
  i_ups : up_packets QE CE K (SystemModel.sent_up CE (f_ct y)) ups;
  i_up : exists rest, concat (chunks QE o (f_qt y)) ++ rest = stream ups /\
           (~ In (ODiscredit o) (f_qt y) -> rest = f_uw y)
}.

Lemma passed_of ms qs : passed QE CE K ms qs -> Forall of_server qs.
Proof. induction 1 as [|n p ts ms qs H IH|n p ms qs H IH]; [constructor| |exact IH]. constructor; [exists n, p, ts; reflexivity|exact IH]. Qed.

Lemma inv_fresh y : fresh QE CE u o y -> inv y [] [].
Proof.
  intros (ls & s & tr & R & NC & F & HT & HC & HL & HCT & HU & HD).
  destruct (by_connected QE s (LConnected u) (f_q y) [] u o [] F) as (_ & MU & Q).
  split.
  - exists (ls ++ [LConnected u]). rewrite HT. econstructor; eassumption.
  - rewrite HT. apply in_app_iff. right. left. reflexivity.
  - cbn [fire] in F. destruct (p_loop s); [discriminate F|]. rewrite MU in F. injection F as F Q'.
    rewrite <- F, <- Q'. cbn [p_map]. unfold updk. rewrite N.eqb_refl. reflexivity.
  - rewrite HC, HL, HCT. reflexivity.
  - constructor.
  - rewrite HL, HD. reflexivity.
  - rewrite HCT. constructor.
  - exists []. rewrite HT, chunks_app. cbn [chunks flat_map]. rewrite app_nil_r.
    assert (CH : chunks QE o tr = []).
    { pose proof (qrun_fed QE _ _ _ R o) as FD. unfold fed in FD.
      rewrite (i_fresh QE _ _ (qrun_inv QE _ _ _ R)) in FD by (rewrite Q; apply le_n). tauto. }
    rewrite CH, HU. split; [reflexivity|auto].
Qed.

Lemma inv_server y ups downs l s' es qs yu : inv y ups downs ->
  match l with LDisconnected v => v <> u | _ => True end ->
  fire QE (f_q y) l = Some (s', es) -> passed QE CE K (TsSystemModel.handed QE u es) qs ->
  (exists rest, concat (chunks QE o (f_qt y ++ es)) ++ rest = stream ups /\ (~ In (ODiscredit o) (f_qt y ++ es) -> rest = yu)) ->
  inv (mkMix QE CE s' (f_qt y ++ es) (f_c y) (f_ls y) (f_ct y) yu (f_dw y ++ stream qs)) ups (downs ++ qs).
Proof.
  intros I L F P U. split; cbn [MixModel.f_q MixModel.f_qt MixModel.f_c MixModel.f_ls MixModel.f_ct MixModel.f_uw MixModel.f_dw]; try apply I; auto.
  - destruct (i_q _ _ _ I) as (ls & R). exists (ls ++ [l]). econstructor; eassumption.
  - apply in_app_iff. left. apply I.
  - exact (TsSystemProofs.map_apart QE u o _ _ _ _ F (i_map _ _ _ I) L).
  - apply Forall_app. split; [apply I|exact (passed_of _ _ P)].
  - rewrite SystemProofs.stream_app, app_assoc, (i_down _ _ _ I). reflexivity.
Qed.

Lemma inv_client y ups downs l s' t qs yd : inv y ups downs -> ConsumerModel.fire CE l (f_c y) = Some (s', t) ->
  up_packets QE CE K (SystemModel.sent_up CE t) qs -> PropConsumerLife.delivered CE [l] ++ yd = f_dw y ->
  inv (mkMix QE CE (f_q y) (f_qt y) s' (f_ls y ++ [l]) (f_ct y ++ t) (f_uw y ++ stream qs) yd) (ups ++ qs) downs.
Proof.
  intros I F U D. split; cbn [MixModel.f_q MixModel.f_qt MixModel.f_c MixModel.f_ls MixModel.f_ct MixModel.f_uw MixModel.f_dw]; try apply I; auto.
  - rewrite (ConsumerSpec.runs_app CE _ _ _ _ _ (i_run _ _ _ I)). cbn [ConsumerModel.runs]. rewrite F, app_nil_r. reflexivity.
  - unfold PropConsumerLife.delivered. rewrite flat_map_app. rewrite <- app_assoc.
    change (flat_map (fun l : ConsumerModel.label CE => match l with ConsumerModel.LEvent _ (ConsumerModel.InBinary d) => d | _ => [] end) [l]) with (PropConsumerLife.delivered CE [l]).
    rewrite D. apply I.
  - rewrite SystemProofs.sent_up_app. apply Forall2_app; [apply I|exact U].
  - destruct (i_up _ _ _ I) as (rest & H1 & H2). exists (rest ++ stream qs). rewrite app_assoc, H1, SystemProofs.stream_app.
    split; [reflexivity|]. intros ND. rewrite (H2 ND). reflexivity.
Qed.

Lemma inv_move A y y' ups downs : inv y ups downs -> move QE CE K A u y y' -> exists qs qs', inv y' (ups ++ qs) (downs ++ qs').
Proof.
  intros I M. destruct M as [y l s' es qs AP F P|y n fuel s' es qs L F P|y n x qs P|y l s' t qs OW AL F P|y n s' t qs l0 L F P].
  - exists [], qs. rewrite app_nil_r. apply inv_server with (l := l); auto.
    + destruct l; cbn [TsSystemModel.apart] in AP; auto.
    + destruct (i_q _ _ _ I) as (ls & R). destruct (i_up _ _ _ I) as (rest & H1 & H2). exists rest.
      rewrite chunks_app, (TsSystemProofs.chunks_other QE u o _ _ _ _ _ (qrun_inv QE _ _ _ R) F (i_map _ _ _ I) AP), app_nil_r.
      split; [exact H1|]. intro ND. apply H2. intro W. apply ND. apply in_app_iff. auto.
  - exists [], qs. rewrite app_nil_r. apply inv_server with (l := LData u (firstn n (f_uw y)) fuel); auto.
    destruct (i_q _ _ _ I) as (ls & R). destruct (i_up _ _ _ I) as (rest & H1 & H2).
    destruct (fire_emits QE _ _ _ _ F) as [(C & _)|[(t & j & c & C & _)|[(v & C & _)|
      [(v & C & _)|[(v & data & fu & C0 & LO & C)|[(v & C & _)|[(v & C & _)|[(v & C & _)|(e & r & k & C & _)]]]]]]]];
      try discriminate C; try (elim C; fail).
    injection C0 as <- <- <-. rewrite (i_map _ _ _ I) in C. destruct C as [(C & _)|(o' & c & MO & O & C)]; [discriminate C|].
    injection MO as <-. rewrite chunks_app.
    assert (RC : chunks QE o (receiving_err QE u (Some o)) = []).
    { apply (noio_nil QE o). intros e He. eapply receiving_noio; exact He. }
    pose proof (qrun_flags QE _ _ _ R o) as FL. rewrite O in FL.
    destruct C as [(KD & ->)|(r & b & KD & _ & ->)].
    + exists rest. rewrite RC, app_nil_r. split; [exact H1|]. intro ND. elim ND. apply in_app_iff. left.
      apply (f_disc _ _ _ _ FL). exact KD.
    + assert (ND : ~ In (ODiscredit o) (f_qt y)) by (intro W; apply (f_disc _ _ _ _ FL) in W; congruence).
      exists (skipn n (f_uw y)). rewrite (H2 ND) in H1.
      assert (CH : chunks QE o (OChunk o (firstn n (f_uw y)) r ::
                     match r with TReturned (S _) => receiving_err QE u (Some o) | _ => [] end) = [firstn n (f_uw y)]).
      { unfold chunks. cbn [flat_map]. rewrite Nat.eqb_refl. cbn [app]. f_equal.
        destruct r as [[|k]|]; [reflexivity|exact RC|reflexivity]. }
      rewrite CH, concat_app. cbn [concat]. rewrite app_nil_r, <- app_assoc, firstn_skipn. split; [exact H1|auto].
  - exists [], qs. rewrite app_nil_r.
    split; cbn [MixModel.f_q MixModel.f_qt MixModel.f_c MixModel.f_ls MixModel.f_ct MixModel.f_uw MixModel.f_dw]; try apply I.
    + apply Forall_app. split; [apply I|exact (passed_of _ _ P)].
    + rewrite SystemProofs.stream_app, app_assoc, (i_down _ _ _ I). reflexivity.
  - exists qs, []. rewrite app_nil_r. apply inv_client; auto.
    unfold PropConsumerLife.delivered. cbn [flat_map]. destruct l; try reflexivity. destruct e; try reflexivity. elim OW.
  - exists qs, []. rewrite app_nil_r. apply inv_client; auto.
    subst l0. unfold PropConsumerLife.delivered. cbn [flat_map]. rewrite app_nil_r, firstn_skipn. reflexivity.
Qed.

Theorem inv_reach A y0 y : fresh QE CE u o y0 -> reach QE CE K A u y0 y -> exists ups downs, inv y ups downs.
Proof.
  intros FR R. induction R as [|y1 y2 R IH M]; [exists [], []; apply inv_fresh; exact FR|].
  destruct IH as (ups & downs & I). destruct (inv_move _ _ _ _ _ I M) as (qs & qs' & I'). eauto.
Qed.

(** ** What the consumer takes *)
Lemma down_ok qs : Forall of_server qs -> Forall packet_ok qs /\ Forall (good (ConsumerModel.x_get CE) (ConsumerModel.x_sig CE)) qs.
Proof.
  induction 1 as [|q qs (n & p & ts & ->) F (I1 & I2)]; [split; constructor|].
  destruct (f_downs _ _ _ OK p) as (H1 & H2 & m & G & _). split; constructor; auto.
  - apply TsSystemProofs.frame_ok; auto. rewrite (f_sig _ _ _ OK). apply (f_sig16 _ _ _ OK).
  - split; cbn [TsSystemModel.frame p_id p_sig p_body]; [apply (f_sig _ _ _ OK)|]. eauto.
Qed.

Lemma taken_plain y ups downs h m : inv y ups downs -> In (ConsumerModel.XIn CE h m) (f_ct y) -> ConsumerModel.x_confirm CE m = false.
Proof.
  intros I J. destruct (down_ok _ (i_downs _ _ _ I)) as (PO & GOOD).
  destruct (PropConsumerLife.reading CE downs [] PO (SystemProofs.goods_calm _ _ _ GOOD) SystemProofs.incomplete_nil _ _ _ (f_dw y) (i_run _ _ _ I)) as (j & _ & _ & R & _).
  { rewrite app_nil_r. apply I. }
  assert (W : In (h, m) (flat_map (deliver (ConsumerModel.x_get CE) (ConsumerModel.x_sig CE)) (firstn j downs))).
  { rewrite <- R. apply in_app_iff. left. unfold PropConsumerLife.read. apply in_flat_map. exists (ConsumerModel.XIn CE h m). split; [exact J|]. left. reflexivity. }
  destruct (SystemProofs.in_flat_deliver _ _ _ _ _ W) as (q & Q & _ & G).
  assert (Q' : In q downs) by (rewrite <- (firstn_skipn j downs); apply in_app_iff; auto).
  pose proof (i_downs _ _ _ I) as D. rewrite Forall_forall in D. destruct (D _ Q') as (n & p & ts & ->).
  cbn [TsSystemModel.frame p_id p_body] in G. destruct (f_downs _ _ _ OK p) as (_ & _ & m' & G' & C & _). congruence.
Qed.

Lemma inv_exec y ups downs : inv y ups downs -> ConsumerSpec.exec CE (f_ct y).
Proof. intros I. exists (f_ls y), (f_c y). apply I. Qed.

Lemma no_spawn y ups downs a : inv y ups downs -> ~ In (ConsumerModel.XSpawn CE a) (f_ct y).
Proof.
  intros I J. destruct (SystemProofs.spawned_in CE _ (inv_exec _ _ _ I) _ J) as (h & m & IN & C).
  rewrite (taken_plain _ _ _ _ _ I IN) in C. discriminate C.
Qed.

(** ** What the producer takes *)
Lemma up_ok ms qs : up_packets QE CE K ms qs ->
  Forall packet_ok qs /\ Forall (quiet (q_get QE) (q_sig QE)) qs /\ count_bad (q_get QE) (q_sig QE) qs = 0%nat.
Proof.
  induction 1 as [|[n p] q ms qs (ts & ->) F (I1 & I2 & I3)]; [repeat split; constructor|].
  destruct (f_ups _ _ _ OK p) as (H1 & H2 & m & G & _). cbn [fst snd]. split; [|split].
  - constructor; auto. apply TsSystemProofs.frame_ok; auto. apply (f_sig16 _ _ _ OK).
  - constructor; auto. split; cbn [TsSystemModel.frame p_sig p_id p_body]; [symmetry; apply (f_sig _ _ _ OK)|]. rewrite G. discriminate.
  - unfold count_bad, badb, deliver in *. cbn [filter TsSystemModel.frame p_id p_body p_sig]. rewrite (f_sig _ _ _ OK), N.eqb_refl, G. rewrite (f_sig _ _ _ OK) in I3. exact I3.
Qed.

Lemma read_up y ups downs h m : inv y ups downs -> blen (concat (chunks QE o (f_qt y))) < 2 ^ 64 -> In (ORead o h m) (f_qt y) ->
  exists a n p, In (ConsumerModel.XSend CE a n p true) (f_ct y) /\ h_seq h = n mod 2 ^ 32 /\
    q_get QE (fst (f_up _ _ K p)) (snd (f_up _ _ K p)) = Ok m.
Proof.
  intros I L IN. destruct (i_q _ _ _ I) as (ls & R). destruct (up_ok _ _ (i_ups _ _ _ I)) as (U1 & U2 & U3).
  destruct (i_made QE _ _ (qrun_inv QE _ _ _ R) _ _ (i_o _ _ _ I)) as (c & O & _).
  pose proof (qrun_fed QE _ _ _ R o) as FD. unfold fed in FD. rewrite O in FD. destruct FD as (FD & _).
  destruct (i_up _ _ _ I) as (rest & E & _).
  destruct (TsSystemProofs.fed_prefix _ _ _ _ _ _ _ _ FD U1 U2 U3 E L) as (j & Q & _).
  assert (W : In (h, m) (reads QE o (f_qt y))).
  { apply in_flat_map. exists (ORead o h m). split; [exact IN|]. rewrite Nat.eqb_refl. left. reflexivity. }
  assert (D : In (h, m) (flat_map (deliver (q_get QE) (q_sig QE)) (firstn j ups))) by (rewrite <- Q; apply in_app_iff; auto).
  destruct (SystemProofs.in_flat_deliver _ _ _ _ _ D) as (q & HQ & HH & G).
  assert (HQ' : In q ups) by (rewrite <- (firstn_skipn j ups); apply in_app_iff; auto).
  destruct (SystemProofs.forall2_in _ _ _ _ (i_ups _ _ _ I) HQ') as ([n p] & S & ts & ->). cbn [TsSystemModel.frame p_id p_body fst snd] in G.
  apply SystemProofs.in_sent_up in S as (a & S). exists a, n, p. split; [exact S|]. split; [rewrite HH; reflexivity|exact G].
Qed.
End Proofs.
