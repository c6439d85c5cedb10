(** Property C75: no call of a connected consumer is left waiting.

    The setting is that of PropSystem.v: a producer and one of its consumers, with a
    transport that loses nothing. *)
From Coq Require Import List Arith NArith Bool Lia.
From Coq Require Import Strings.Byte.
From Verif Require Import Bytes WireModel FrameModel FrameProofs.
From Verif Require ProducerModel ConsumerModel ConsumerTrace ConsumerTrace2 ConsumerSpec PropProducer PropConsumer PropConsumerLife.
From Verif Require Import SystemModel SystemProofs SystemAnswers SystemLive PropSystem PropAnswers.
Import ListNotations.
Open Scope N_scope.

Section Connected.
Variable PE : ProducerModel.env.
Variable CE : ConsumerModel.cenv.
Variable K : codec PE CE.
Variable u : N.

(** Nothing is under way, and no task of the consumer can make a step: everything
    that could be done has been done.  Only an application, the transport or a timer
    can make the system go on. *)
Definition at_rest (y : sys PE CE) : Prop :=
  y_run _ _ y = true /\ y_ups _ _ y = [] /\ y_downs _ _ y = [] /\
  (forall a ok, ConsumerModel.fire CE (ConsumerModel.LAct CE a ok) (y_c _ _ y) = None) /\
  (forall ok, ConsumerModel.fire CE (ConsumerModel.LApi CE ok) (y_c _ _ y) = None) /\
  ConsumerModel.fire CE (ConsumerModel.LNext CE) (y_c _ _ y) = None /\
  ConsumerModel.fire CE (ConsumerModel.LAnswer CE) (y_c _ _ y) = None /\
  ConsumerModel.fire CE (ConsumerModel.LAuth CE) (y_c _ _ y) = None /\
  ConsumerModel.fire CE (ConsumerModel.LShut CE) (y_c _ _ y) = None.

(** The consumer has not ended. *)
Definition alive (ct : list (ConsumerModel.out CE)) : Prop :=
  (forall r, ~ In (ConsumerModel.XApiEnd CE r) ct) /\ (forall r, ~ In (ConsumerModel.XMsgEnd CE r) ct) /\
  (forall b r, ~ In (ConsumerModel.XOver CE b r) ct).

(** The producer has not disconnected [u], packs and sends what it makes for [u],
    and the application takes every beacon. *)
Definition serves (pt : list (ProducerModel.out PE)) : Prop :=
  (forall ok, ~ In (ProducerModel.ODisc PE u ok) pt) /\
  (forall n p, ~ In (ProducerModel.OUnpacked PE (Some u) n p) pt) /\
  (forall n p, ~ In (ProducerModel.OSend PE u n p false) pt) /\
  (forall b m ids, ~ In (ProducerModel.OBeacon PE u b m ids false) pt).

(** The application of the producer has assigned [u], or it need not. *)
Definition admitted (pt : list (ProducerModel.out PE)) : Prop :=
  ProducerModel.e_is PE = ProducerModel.IIgnore \/ ProducerModel.e_is PE = ProducerModel.ILog \/
  forall t1 h m t2, pt = t1 ++ ProducerModel.OHandle PE u h m :: t2 ->
    ProducerModel.e_self PE m = None -> ProducerModel.e_hash PE m = None -> In (ProducerModel.OSetAssigned PE u) t1.

(** The messages of the consumer's calls are requests or beacons of the producer. *)
Definition understood : Prop := forall x v m,
  ProducerModel.e_get PE (fst (k_up _ _ K (ConsumerModel.PUser CE x v))) (snd (k_up _ _ K (ConsumerModel.PUser CE x v))) = Ok m ->
  ProducerModel.e_request PE m <> None \/ ProducerModel.e_beacon PE m <> None.

Hypothesis COMPAT : compatible PE CE K.
Variables y0 y : sys PE CE.
Hypothesis FRESH : fresh PE CE u y0.
Hypothesis REACH : reach PE CE K (patient CE) u y0 y.

(** Every call has returned or has been dropped. *)
Theorem C75_no_call_left : at_rest y -> alive (y_ct _ _ y) -> serves (y_pt _ _ y) -> admitted (y_pt _ _ y) -> understood ->
  (forall n, 10 <= n -> uncontrolled PE u (y_pt _ _ y) n) ->
  forall a k r x, In (ConsumerModel.XCall CE a k) (y_ct _ _ y) -> k = ConsumerModel.KReq CE r x \/ k = ConsumerModel.KBeacon CE r x ->
  (exists res, In (ConsumerModel.XRet CE a res) (y_ct _ _ y)) \/ In (ConsumerModel.XDrop CE a) (y_ct _ _ y).
Proof.
  intros (RUN & NUP & NDN & R1 & R2 & R3 & R4 & R5 & R6) (AL1 & AL2 & AL3) (S1 & S2 & S3 & S4) AD UN NB a k r x C KK.
  destruct (inv_reach PE CE K u COMPAT y0 y FRESH REACH) as (ups & downs & I). pose proof (inv_exec _ _ _ _ _ _ _ I) as X.
  pose proof (i_run _ _ _ _ _ _ _ I) as RR. pose proof (ConsumerTrace2.runs_inv CE _ _ [] _ _ (ConsumerTrace2.start_inv CE) RR) as CI. cbn [app] in CI.
  assert (U : ConsumerModel.api_up CE (y_c _ _ y) = true).
  { destruct (ConsumerModel.api_up CE (y_c _ _ y)) eqn:U; [reflexivity|]. destruct (ConsumerTrace2.e_api' _ _ _ (ConsumerTrace2.i_ends _ _ _ CI) U) as [(e & J)|J]; [elim (AL1 e J)|elim (AL3 _ _ J)]. }
  assert (M : ConsumerModel.msg_up CE (y_c _ _ y) = true).
  { destruct (ConsumerModel.msg_up CE (y_c _ _ y)) eqn:M; [reflexivity|]. destruct (ConsumerTrace2.e_msg' _ _ _ (ConsumerTrace2.i_ends _ _ _ CI) M) as [(e & J)|J]; [elim (AL2 e J)|elim (AL3 _ _ J)]. }
  pose proof (runs_under_way CE _ _ [] _ _ RR ltac:(intros ? ? [])) as W. cbn [app] in W.
  destruct (W _ _ C) as [A|(o & O1 & O2)].
  2:{ destruct o; cbn [ConsumerTrace.ended] in O2; try contradiction; subst; eauto; exfalso.
      destruct (in_split _ _ O1) as (w1 & w2 & Q). destruct (ConsumerSpec.at_auth CE _ X _ _ _ _ Q) as (SP & _).
      apply (PropConsumer.call_not_spawn CE _ _ _ X C). rewrite Q. apply in_app_iff. auto. }
  exfalso. destruct (ConsumerModel.act CE a (ConsumerModel.s_acts CE (y_c _ _ y))) as [[k' sg]|] eqn:AC; [|congruence].
  assert (k' = k).
  { destruct (ConsumerModel.user_kind CE k') eqn:UK.
    - exact (PropConsumer.call_unique CE _ a _ _ X (ConsumerTrace.l_call _ _ _ (ConsumerTrace2.i_life _ _ _ CI) _ _ _ AC UK) C).
    - elim (PropConsumer.call_not_spawn CE _ a _ X C (ConsumerTrace.l_spawn _ _ _ (ConsumerTrace2.i_life _ _ _ CI) _ _ _ AC UK)). }
  subst k'.
  destruct (idle_waits CE _ _ a k sg CI (conj R1 (conj R2 (conj R3 (conj R4 (conj R5 R6))))) U M AC) as (MI & n & SG & OW).
  { exists r, x. exact KK. }
  assert (SN : In (ConsumerModel.XSeqNo CE a n) (y_ct _ _ y)).
  { eapply ConsumerTrace.g_number; [apply CI|exact AC| |rewrite SG; reflexivity]. destruct KK as [-> | ->]; reflexivity. }
  destruct (PropConsumer.C37_numbers CE _ X) as (RG & _). destruct (RG a n SN) as ((G1 & G2) & _).
  assert (N0 : n <> 0) by lia. assert (B : n < 2 ^ 32) by (change (2 ^ 32) with 4294967296; lia).
  pose proof (reach_reasoned PE CE K u _ y0 y FRESH REACH) as RS.
  specialize (NB n G1).
  (* all have been taken *)
  assert (T : all_taken CE n (y_ct _ _ y) (y_c _ _ y)).
  { apply (runs_all_taken CE (y_ct _ _ y) X n (read_bound PE CE K COMPAT u y0 y n FRESH REACH N0 NB)) with (ls := y_ls _ _ y) (s := ConsumerModel.start CE) (tr := []) (t := y_ct _ _ y);
      [|exact AL1|exact AL3|apply ConsumerTrace2.start_inv|exact RR|reflexivity|split; [reflexivity|discriminate]].
    intros h m J1 J2. exact (confirm_unnumbered PE CE K COMPAT u y ups downs n h m I RS N0 J1 J2). }
  destruct T as (T & _). rewrite MI, Nat.add_0_r in T.
  pose proof (sends_matches CE _ X n (y_ct _ _ y) [] (eq_sym (app_nil_r _))) as SM. destruct (ConsumerTrace2.owner CE n (y_ct _ _ y)) as [b|]; [|congruence].
  (* all have been read *)
  destruct (down_ok PE CE K COMPAT _ _ (i_downs _ _ _ _ _ _ _ I)) as (OK & GOOD).
  assert (RD : rd CE n (y_ct _ _ y) = length (with_carried n (sent_down PE u (y_pt _ _ y)))).
  { destruct (PropConsumerLife.reading CE downs [] OK (goods_calm _ _ _ GOOD) incomplete_nil _ _ _ (y_downs _ _ y) RR) as (j & _ & B1 & B2 & B3).
    { rewrite app_nil_r. apply I. }
    destruct (B3 GOOD) as (AR & QE). rewrite (QE MI), app_nil_r in B2. rewrite NDN, !app_nil_r in B1.
    assert (Z : skipn j downs = []).
    { destruct (skipn j downs) as [|p l] eqn:Es; [reflexivity|]. exfalso.
      cbn [FrameProofs.at_rest] in AR. rewrite B1 in AR. cbn [stream flat_map] in AR. rewrite !blen_app in AR. lia. }
    pose proof (downs_arrive PE CE K COMPAT _ _ (i_downs _ _ _ _ _ _ _ I)) as FD. rewrite <- (firstn_skipn j downs), Z, app_nil_r, <- B2 in FD.
    apply (forall2_numbered _ n _ _ (fun x z W => proj1 W) FD). }
  (* all have been answered *)
  destruct (C41_all_handled PE CE K COMPAT u y0 y FRESH REACH) as (done & rest & Q1 & Q2 & Q3). rewrite (Q3 RUN NUP S1), app_nil_r in Q1.
  assert (HN : length (with_number n (handled_by PE u (y_pt _ _ y))) = sd CE n (y_ct _ _ y)).
  { unfold sd. rewrite Q1. apply (forall2_numbered _ n _ _ (fun x z W => proj1 W) Q2). }
  assert (AN : (length (with_number n (handled_by PE u (y_pt _ _ y))) <= length (with_carried n (sent_down PE u (y_pt _ _ y))))%nat).
  { apply (all_answered PE u n _ B (reach_fut PE CE K u _ y0 y FRESH REACH) RS S2 S3).
    intros t1 h m t2 Q Hn.
    assert (V : ProducerModel.e_self PE m = None /\ ProducerModel.e_hash PE m = None /\ (ProducerModel.e_request PE m <> None \/ ProducerModel.e_beacon PE m <> None)).
    { assert (J : In (h, m) (handled_by PE u (y_pt _ _ y))).
      { rewrite Q. unfold handled_by. rewrite flat_map_app. apply in_app_iff. right. cbn [flat_map]. rewrite N.eqb_refl. left. reflexivity. }
      destruct (in_split _ _ J) as (x1 & x2 & W'). rewrite W' in Q2. apply Forall2_app_inv_l in Q2. destruct Q2 as (d1 & d2 & _ & Q2 & SD). rewrite SD in Q1.
      inversion Q2 as [|? [jn p] ? ? (E1 & E2) _]; subst. cbn [fst snd] in *.
      assert (S : In (jn, p) (sent_up CE (y_ct _ _ y))) by (rewrite Q1; apply in_elt).
      unfold sent_up in S. apply in_flat_map in S. destruct S as (o & Z1 & Z2). destruct o; try destruct Z2. destruct ok; [|destruct Z2]. destruct Z2 as [Z2|[]]. injection Z2 as -> ->.
      rewrite N.mod_small in E1 by (eapply (sent_bound CE _ X); exact Z1). subst jn.
      destruct (in_split _ _ Z1) as (v1 & v2 & VQ). destruct (ConsumerSpec.at_send CE _ X _ _ _ _ _ _ VQ) as (P & _).
      destruct p; cbn [ConsumerTrace.paid] in P; [destruct P; lia|destruct P; lia|].
      destruct (y_up _ _ _ COMPAT (ConsumerModel.PUser CE x0 u0)) as (_ & _ & m' & Gm & D1 & D2). rewrite E2 in Gm. injection Gm as <-.
      split; [exact D1|]. split; [exact D2|]. eapply UN. exact E2. }
    destruct V as (V1 & V2 & V3).
    destruct (C41_requests_served PE CE K COMPAT u y0 y FRESH REACH _ _ _ _ Q V1 V2) as (D1 & D2).
    { destruct AD as [AD|[AD|AD]]; auto. right. right. eapply AD; eauto. }
    destruct (ProducerModel.e_request PE m) as [rq|] eqn:ER.
    - left. destruct (D1 rq eq_refl) as (ids & res & t3 & ->). eauto.
    - right. destruct (ProducerModel.e_beacon PE m) as [bc|] eqn:EB; [|destruct V3; congruence].
      destruct (D2 bc eq_refl eq_refl) as (ids & ok & t3 & ->). destruct ok; [eauto|]. exfalso. apply (S4 bc m ids). rewrite Q. apply in_app_iff. right. right. left. reflexivity. }
  unfold sd in HN. lia.
Qed.
End Connected.
Print Assumptions C75_no_call_left.

(** ** Examples *)
Lemma no_act CE (s : ConsumerModel.st CE) :
  forallb (fun x => match ConsumerModel.run_act CE (fst x) true s, ConsumerModel.run_act CE (fst x) false s with None, None => true | _, _ => false end)
    (ConsumerModel.s_acts CE s) = true ->
  forall a ok, ConsumerModel.fire CE (ConsumerModel.LAct CE a ok) s = None.
Proof.
  intros F a ok. cbn [ConsumerModel.fire].
  destruct (ConsumerModel.act CE a (ConsumerModel.s_acts CE s)) as [x|] eqn:A; [|unfold ConsumerModel.run_act; rewrite A; reflexivity].
  assert (J : In (a, x) (ConsumerModel.s_acts CE s)).
  { clear F. induction (ConsumerModel.s_acts CE s) as [|[b z] l IH]; [discriminate A|]. cbn [ConsumerModel.act] in A.
    destruct (Nat.eqb_spec a b) as [->|]; [injection A as ->; left; reflexivity|right; apply IH; exact A]. }
  rewrite forallb_forall in F. specialize (F _ J). cbn [fst] in F.
  destruct ok; destruct (ConsumerModel.run_act CE a true s); destruct (ConsumerModel.run_act CE a false s); try discriminate F; reflexivity.
Qed.

(** The three calls of PropAnswers.v; two of them at the same time as the beacon.
    When the last has returned, the system is at rest. *)
Definition settled : list (instr peer) := three ++ [IClient _ (ConsumerModel.LNext peer)].
Definition ending (l : list (instr peer)) := after mixed 4 true l fair.
Lemma mixed_understood : understood fair_server peer mixed.
Proof. intros x v m. cbn [mixed k_up fst snd]. destruct (x <? 100); intros Q; vm_compute in Q; injection Q as <-; [left|right]; discriminate. Qed.
Example C75_no_call_left_example :
  let y := ending settled in
  compatible _ _ mixed /\ fresh _ _ 4 fair /\ reach _ _ mixed (patient peer) 4 fair y /\
  at_rest _ _ y /\ alive peer (y_ct _ _ y) /\ serves fair_server 4 (y_pt _ _ y) /\ admitted fair_server 4 (y_pt _ _ y) /\
  understood fair_server peer mixed /\ (forall n, 10 <= n -> uncontrolled fair_server 4 (y_pt _ _ y) n) /\
  In (ConsumerModel.XCall peer 3 (ConsumerModel.KReq peer 0 2)) (y_ct _ _ y).
Proof.
  cbv zeta. split; [apply mixed_compatible|]. split; [apply begin_fresh|].
  split; [apply (after_reach mixed 4 true settled fair); vm_compute; reflexivity|].
  split. { split; [vm_compute; reflexivity|]. split; [vm_compute; reflexivity|]. split; [vm_compute; reflexivity|].
    split; [apply no_act; vm_compute; reflexivity|]. split; [intros [|]; vm_compute; reflexivity|]. repeat (split; [vm_compute; reflexivity|]). vm_compute; reflexivity. }
  split. { split; [|split].
    - intros r J. refine (PropProducer.none_in (fun o => match o with ConsumerModel.XApiEnd _ _ => true | _ => false end) _ _ _ _ J); [vm_compute; reflexivity|reflexivity].
    - intros r J. refine (PropProducer.none_in (fun o => match o with ConsumerModel.XMsgEnd _ _ => true | _ => false end) _ _ _ _ J); [vm_compute; reflexivity|reflexivity].
    - intros b r J. refine (PropProducer.none_in (fun o => match o with ConsumerModel.XOver _ _ _ => true | _ => false end) _ _ _ _ J); [vm_compute; reflexivity|reflexivity]. }
  split. { split; [|split; [|split]].
    - intros ok J. refine (PropProducer.none_in (fun o => match o with ProducerModel.ODisc _ _ _ => true | _ => false end) _ _ _ _ J); [vm_compute; reflexivity|reflexivity].
    - intros n p J. refine (PropProducer.none_in (fun o => match o with ProducerModel.OUnpacked _ _ _ _ => true | _ => false end) _ _ _ _ J); [vm_compute; reflexivity|reflexivity].
    - intros n p J. refine (PropProducer.none_in (fun o => match o with ProducerModel.OSend _ _ _ _ ok => negb ok | _ => false end) _ _ _ _ J); [vm_compute; reflexivity|reflexivity].
    - intros b m ids J. refine (PropProducer.none_in (fun o => match o with ProducerModel.OBeacon _ _ _ _ _ ok => negb ok | _ => false end) _ _ _ _ J); [vm_compute; reflexivity|reflexivity]. }
  split; [left; reflexivity|]. split; [apply mixed_understood|]. split.
  - intros n _ j x J. refine (False_ind _ (PropProducer.none_in (fun o => match o with ProducerModel.OSend _ _ _ (ProducerModel.PBroadcast _) _ => true | _ => false end) _ _ _ _ J)); [vm_compute; reflexivity|reflexivity].
  - apply (nth_error_In _ 17); vm_compute; reflexivity.
Qed.

(** Why [serves] asks that the application takes every beacon: if the handler of a
    beacon fails, the producer sends nothing back (render_beacon_emitter.rs l.8-34,
    render_mod.rs l.959-984; the error of BeaconConfirmation is never used), and the
    consumer's call has no timeout, so it waits for ever. *)
Definition deaf : ProducerModel.env := {|
  ProducerModel.e_world := unit; ProducerModel.e_msg := N * bytes; ProducerModel.e_user := N;
  ProducerModel.e_get := ProducerModel.e_get fair_server; ProducerModel.e_sig := 5;
  ProducerModel.e_self := ProducerModel.e_self fair_server; ProducerModel.e_hash := ProducerModel.e_hash fair_server;
  ProducerModel.e_request := ProducerModel.e_request fair_server; ProducerModel.e_beacon := ProducerModel.e_beacon fair_server;
  ProducerModel.e_requests := ProducerModel.e_requests fair_server; ProducerModel.e_events := fun _ => [false];
  ProducerModel.e_connected := [false]; ProducerModel.e_disconnected := [true];
  ProducerModel.e_self_opt := [false]; ProducerModel.e_assigned_opt := [true; false];
  ProducerModel.e_phash := [x0a]; ProducerModel.e_whash := [x0b];
  ProducerModel.e_is := ProducerModel.IIgnore; ProducerModel.e_cs := ProducerModel.SEmitDisc;
  ProducerModel.w_pack := fun w p => (w, true);
  ProducerModel.w_send := fun w u seq p => (w, true);
  ProducerModel.w_disconnect := fun w u => (w, true);
  ProducerModel.w_request := fun w r i ids m => (w, ProducerModel.HErr 99);
  ProducerModel.w_beacon := fun w b i ids m => (w, false);
  ProducerModel.w_event := fun w n ids => (w, None);
  ProducerModel.w_connected := fun w i ids => (w, None);
  ProducerModel.w_disconnected := fun w i ids => (w, None);
  ProducerModel.w_error := fun w e u i => (w, true);
  ProducerModel.w_ready := fun w => (w, true);
  ProducerModel.w_deferred := fun w => w |}.
Definition deaf_wires : codec deaf peer := mkCodec deaf peer (k_up _ _ mixed) (k_down _ _ mixed).
Lemma deaf_compatible : compatible deaf peer deaf_wires.
Proof. destruct mixed_compatible as [A B C D]. split; [exact A|exact B|exact C|exact D]. Qed.
Definition unheard0 : sys deaf peer :=
  mkSys _ _ (PropProducer.final deaf tt [ProducerModel.VConnected 4]) true [] (ConsumerModel.start peer) [] [] [] [].
Definition unheard : sys deaf peer :=
  after deaf_wires 4 true (greet ++ speak 1 (ConsumerModel.KBeacon peer 0 100) ++ [IReceive _ 34]) unheard0.
Theorem C75_beacon_refuted :
  exists (PE : ProducerModel.env) (CE : ConsumerModel.cenv) (K : codec PE CE) (u : N) (y0 y : sys PE CE) a b x,
    compatible PE CE K /\ fresh PE CE u y0 /\ reach PE CE K (patient CE) u y0 y /\
    at_rest PE CE y /\ alive CE (y_ct _ _ y) /\ (forall ok, ~ In (ProducerModel.ODisc PE u ok) (y_pt _ _ y)) /\
    (forall v n p, ~ In (ProducerModel.OSend PE v n p false) (y_pt _ _ y)) /\ (forall v n p, ~ In (ProducerModel.OUnpacked PE v n p) (y_pt _ _ y)) /\
    admitted PE u (y_pt _ _ y) /\ understood PE CE K /\
    In (ConsumerModel.XCall CE a (ConsumerModel.KBeacon CE b x)) (y_ct _ _ y) /\
    (forall res, ~ In (ConsumerModel.XRet CE a res) (y_ct _ _ y)) /\ ~ In (ConsumerModel.XDrop CE a) (y_ct _ _ y) /\
    ConsumerModel.fire CE (ConsumerModel.LTimeout CE a) (y_c _ _ y) = None.
Proof.
  exists deaf, peer, deaf_wires, 4, unheard0, unheard, 1%nat, 0%nat, 100.
  split; [apply deaf_compatible|]. split; [repeat split|].
  split; [apply (after_reach deaf_wires 4 true (greet ++ speak 1 (ConsumerModel.KBeacon peer 0 100) ++ [IReceive _ 34]) unheard0); vm_compute; reflexivity|].
  split. { split; [vm_compute; reflexivity|]. split; [vm_compute; reflexivity|]. split; [vm_compute; reflexivity|].
    split; [apply no_act; vm_compute; reflexivity|]. split; [intros [|]; vm_compute; reflexivity|]. repeat (split; [vm_compute; reflexivity|]). vm_compute; reflexivity. }
  split. { split; [|split].
    - intros r J. refine (PropProducer.none_in (fun o => match o with ConsumerModel.XApiEnd _ _ => true | _ => false end) _ _ _ _ J); [vm_compute; reflexivity|reflexivity].
    - intros r J. refine (PropProducer.none_in (fun o => match o with ConsumerModel.XMsgEnd _ _ => true | _ => false end) _ _ _ _ J); [vm_compute; reflexivity|reflexivity].
    - intros b r J. refine (PropProducer.none_in (fun o => match o with ConsumerModel.XOver _ _ _ => true | _ => false end) _ _ _ _ J); [vm_compute; reflexivity|reflexivity]. }
  split; [intros ok J; refine (PropProducer.none_in (fun o => match o with ProducerModel.ODisc _ _ _ => true | _ => false end) _ _ _ _ J); [vm_compute; reflexivity|reflexivity]|].
  split; [intros v n p J; refine (PropProducer.none_in (fun o => match o with ProducerModel.OSend _ _ _ _ ok => negb ok | _ => false end) _ _ _ _ J); [vm_compute; reflexivity|reflexivity]|].
  split; [intros v n p J; refine (PropProducer.none_in (fun o => match o with ProducerModel.OUnpacked _ _ _ _ => true | _ => false end) _ _ _ _ J); [vm_compute; reflexivity|reflexivity]|].
  split; [left; reflexivity|]. split; [exact mixed_understood|].
  split; [apply (nth_error_In _ 11); vm_compute; reflexivity|].
  split; [intros res J; refine (PropProducer.none_in (fun o => match o with ConsumerModel.XRet _ _ _ => true | _ => false end) _ _ _ _ J); [vm_compute; reflexivity|reflexivity]|].
  split; [intros J; refine (PropProducer.none_in (fun o => match o with ConsumerModel.XDrop _ _ => true | _ => false end) _ _ _ _ J); [vm_compute; reflexivity|reflexivity]|].
  vm_compute. reflexivity.
Qed.
Print Assumptions C75_beacon_refuted.
