(** Property C74: what a call of a connected consumer returns was made by the
    producer for that very call.

    The setting is that of PropSystem.v.  [y_ct] is what the consumer has done,
    [y_pt] what the producer has done.  Numbers are used again after some 2^32 calls,
    and calls run concurrently, so neither the number nor the content of a message
    identifies a call; its place in the stream does. *)
From Coq Require Import List Arith NArith Bool Lia.
From Coq Require Import Strings.Byte.
From Verif Require Import Bytes WireModel FrameModel FrameProofs.
From Verif Require ProducerModel ConsumerModel ConsumerTrace ConsumerSpec PropProducer PropConsumer PropConsumerLife.
From Verif Require Import SystemModel SystemProofs SystemAnswers PropSystem.
Import ListNotations.
Open Scope N_scope.

Section Connected.
Variable PE : ProducerModel.env.
Variable CE : ConsumerModel.cenv.
Variable K : codec PE CE.
Variable u : N.

(** The message that the consumer sent after [sent] others, which was [p], was taken
    up by the producer; the handler of the server's application was called with it;
    what the handler gave was sent at once with the number [n]; that was the message
    to [u] after [taken] others, and it is read as [m]. *)
Definition made_for (pt : list (ProducerModel.out PE)) (p : ConsumerModel.payload CE) (n : N) (sent taken : nat) (m : ConsumerModel.x_msg CE) : Prop :=
  exists t0 h mq t3, ProducerModel.e_get PE (fst (k_up _ _ K p)) (snd (k_up _ _ K p)) = Ok mq /\
    length (handled_by PE u t0) = sent /\ length (sent_down PE u t0) = taken /\
    ((exists r ids res, ProducerModel.e_request PE mq = Some r /\
        pt = t0 ++ [ProducerModel.OHandle PE u h mq; ProducerModel.OCall PE u r mq ids res;
                    ProducerModel.OSend PE u n (ProducerModel.PAnswer match res with ProducerModel.HErr x => x | ProducerModel.HAct _ x _ => x end) true] ++ t3 /\
        ConsumerModel.x_get CE
          (fst (k_down _ _ K (ProducerModel.PAnswer match res with ProducerModel.HErr x => x | ProducerModel.HAct _ x _ => x end)))
          (snd (k_down _ _ K (ProducerModel.PAnswer match res with ProducerModel.HErr x => x | ProducerModel.HAct _ x _ => x end))) = Ok m) \/
     (exists b ids, ProducerModel.e_request PE mq = None /\ ProducerModel.e_beacon PE mq = Some b /\
        pt = t0 ++ [ProducerModel.OHandle PE u h mq; ProducerModel.OBeacon PE u b mq ids true; ProducerModel.OSend PE u n ProducerModel.PBeacon true] ++ t3 /\
        ConsumerModel.x_get CE (fst (k_down _ _ K ProducerModel.PBeacon)) (snd (k_down _ _ K ProducerModel.PBeacon)) = Ok m)).

(** No message that the server's application sent on its own carries [n]. *)
Definition uncontrolled (pt : list (ProducerModel.out PE)) (n : N) : Prop :=
  forall j x, In (ProducerModel.OSend PE u j (ProducerModel.PBroadcast x) true) pt -> j mod 2 ^ 32 <> n.

Hypothesis COMPAT : compatible PE CE K.
Variables y0 y : sys PE CE.
Hypothesis FRESH : fresh PE CE u y0.
Hypothesis REACH : reach PE CE K (patient CE) u y0 y.

(** A message that is taken for the answer of a call was made for that call. *)
Theorem C74_taken : forall t1 a n m t2 k,
  y_ct _ _ y = t1 ++ ConsumerModel.XMatch CE a n m :: t2 -> In (ConsumerModel.XCall CE a k) (y_ct _ _ y) -> uncontrolled (y_pt _ _ y) n ->
  exists r x v l1 l2 i1 h i2, (k = ConsumerModel.KReq CE r x \/ k = ConsumerModel.KBeacon CE r x) /\
    t1 = l1 ++ ConsumerModel.XSend CE a n (ConsumerModel.PUser CE x v) true :: l2 /\ t1 = i1 ++ ConsumerModel.XIn CE h m :: i2 /\
    made_for (y_pt _ _ y) (ConsumerModel.PUser CE x v) n (length (sent_up CE l1)) (length (PropConsumerLife.read CE i1)) m.
Proof.
  intros t1 a n m t2 k Q C NB.
  destruct (inv_reach PE CE K u COMPAT y0 y FRESH REACH) as (ups' & downs' & I'). pose proof (inv_exec _ _ _ _ _ _ _ I') as X. clear ups' downs' I'.
  destruct (ConsumerSpec.at_match CE _ X _ _ _ _ _ Q) as (_ & OW & _).
  destruct (ConsumerSpec.owner_sound CE _ _ _ OW) as (s1 & s2 & p0 & S & _).
  assert (USER : forall l1 p l2, t1 = l1 ++ ConsumerModel.XSend CE a n p true :: l2 -> exists r x v, p = ConsumerModel.PUser CE x v /\
    (k = ConsumerModel.KReq CE r x \/ k = ConsumerModel.KBeacon CE r x) /\ n <> 0).
  { intros l1 p l2 L. assert (QL : y_ct _ _ y = l1 ++ ConsumerModel.XSend CE a n p true :: (l2 ++ ConsumerModel.XMatch CE a n m :: t2)) by (rewrite Q, L, <- app_assoc; reflexivity).
    destruct (ConsumerSpec.at_send CE _ X _ _ _ _ _ _ QL) as (P & _).
    assert (IL : forall o, In o l1 -> In o (y_ct _ _ y)) by (intros o J; rewrite QL; apply in_app_iff; auto).
    destruct p; cbn [ConsumerTrace.paid] in P.
    - destruct P as (_ & P). elim (PropConsumer.call_not_spawn CE _ a _ X C (IL _ P)).
    - destruct P as (_ & P & _). elim (PropConsumer.call_not_spawn CE _ a _ X C (IL _ P)).
    - destruct P as (SN & (r & CC) & _). exists r, x, u0. split; [reflexivity|]. split.
      + destruct CC as [CC|CC]; [left|right]; exact (PropConsumer.call_unique CE _ a _ _ X C (IL _ CC)).
      + destruct (PropConsumer.C37_numbers CE _ X) as (R & _). destruct (R a n (IL _ SN)) as (? & _). lia. }
  destruct (USER _ _ _ S) as (_ & _ & _ & _ & _ & N0).
  destruct (reach_cut PE CE K u _ y0 y FRESH REACH _ _ _ _ _ Q) as (y1 & l & tail & R1 & Q1 & PL & T).
  destruct (inv_reach PE CE K u COMPAT y0 y1 FRESH R1) as (ups & downs & I).
  destruct (moment PE CE K COMPAT u y1 ups downs t1 a n m l I (reach_reasoned PE CE K u _ y0 y1 FRESH R1) Q1 PL N0) as
    (l1 & p & l2 & i1 & hm & i2 & h & mq & q & L & J & Hh & G & EX & GD).
  { intros j x W. apply (NB j x). rewrite T. apply in_app_iff. auto. }
  destruct (USER _ _ _ L) as (r & x & v & -> & KK & _). exists r, x, v, l1, l2, i1, hm, i2. split; [exact KK|]. split; [exact L|]. split; [exact J|].
  destruct (y_up _ _ _ COMPAT (ConsumerModel.PUser CE x v)) as (_ & _ & mq' & G' & NS & NH). rewrite G in G'. injection G' as <-.
  destruct q; cbn [exchange] in EX.
  - contradiction.
  - contradiction.
  - contradiction.
  - destruct EX as (t0 & b & ids & t3 & E1 & E2 & E3 & E4 & E5). exists t0, h, mq, (t3 ++ tail). split; [exact G|]. split; [exact E2|]. split; [exact E3|].
    right. exists b, ids. split; [exact E4|]. split; [exact E5|]. split; [|exact GD]. rewrite T, E1, Hh, <- app_assoc. reflexivity.
  - destruct EX as (t0 & rq & ids & res & t3 & E1 & E2 & E3 & E4 & E5). unfold ProducerMore.answer_of in E5. subst x0.
    exists t0, h, mq, (t3 ++ tail). split; [exact G|]. split; [exact E2|]. split; [exact E3|].
    left. exists rq, ids, res. split; [exact E4|]. split; [|exact GD]. rewrite T, E1, Hh, <- app_assoc. reflexivity.
  - contradiction.
Qed.

(** A request returns the answer that the handler of the server's application gave
    to it. *)
Theorem C74_request : forall t1 a i m t2,
  y_ct _ _ y = t1 ++ ConsumerModel.XRet CE a (ConsumerModel.ROk CE i m) :: t2 ->
  (forall n, In (ConsumerModel.XSeqNo CE a n) t1 -> uncontrolled (y_pt _ _ y) n) ->
  exists r x v n l1 l2 i1 h i2, In (ConsumerModel.XCall CE a (ConsumerModel.KReq CE r x)) t1 /\ ConsumerModel.x_answer CE r m = Some i /\
    t1 = l1 ++ ConsumerModel.XSend CE a n (ConsumerModel.PUser CE x v) true :: l2 /\ t1 = i1 ++ ConsumerModel.XIn CE h m :: i2 /\
    made_for (y_pt _ _ y) (ConsumerModel.PUser CE x v) n (length (sent_up CE l1)) (length (PropConsumerLife.read CE i1)) m.
Proof.
  intros t1 a i m t2 Q NB.
  destruct (inv_reach PE CE K u COMPAT y0 y FRESH REACH) as (ups & downs & I). pose proof (inv_exec _ _ _ _ _ _ _ I) as X. clear ups downs I.
  destruct (PropConsumer.C36_request_answered CE _ X _ _ _ _ _ Q) as (r & x & n & v & _ & C & SN & _ & _ & _ & M & A).
  destruct (in_split _ _ M) as (m1 & m2 & W).
  assert (QM : y_ct _ _ y = m1 ++ ConsumerModel.XMatch CE a n m :: (m2 ++ ConsumerModel.XRet CE a (ConsumerModel.ROk CE i m) :: t2)) by (rewrite Q, W, <- app_assoc; reflexivity).
  assert (IN : In (ConsumerModel.XCall CE a (ConsumerModel.KReq CE r x)) (y_ct _ _ y)) by (rewrite Q; apply in_app_iff; auto).
  destruct (C74_taken _ _ _ _ _ _ QM IN (NB n SN)) as (r' & x' & v' & l1 & l2 & i1 & h & i2 & KK & L & J & D).
  destruct KK as [KK|KK]; [|discriminate KK]. injection KK as <- <-.
  exists r, x, v', n, l1, (l2 ++ ConsumerModel.XMatch CE a n m :: m2), i1, h, (i2 ++ ConsumerModel.XMatch CE a n m :: m2).
  split; [exact C|]. split; [exact A|]. split; [rewrite W, L, <- app_assoc; reflexivity|]. split; [rewrite W, J, <- app_assoc; reflexivity|exact D].
Qed.

(** A beacon that returns without an error has been given to the server's
    application. *)
Theorem C74_beacon : forall t1 a b x t2,
  y_ct _ _ y = t1 ++ ConsumerModel.XRet CE a (ConsumerModel.RDone CE) :: t2 ->
  In (ConsumerModel.XCall CE a (ConsumerModel.KBeacon CE b x)) (y_ct _ _ y) ->
  (forall n, In (ConsumerModel.XSeqNo CE a n) t1 -> uncontrolled (y_pt _ _ y) n) ->
  exists v n m l1 l2 i1 h i2, ConsumerModel.x_beacon CE m = Some None /\
    t1 = l1 ++ ConsumerModel.XSend CE a n (ConsumerModel.PUser CE x v) true :: l2 /\ t1 = i1 ++ ConsumerModel.XIn CE h m :: i2 /\
    made_for (y_pt _ _ y) (ConsumerModel.PUser CE x v) n (length (sent_up CE l1)) (length (PropConsumerLife.read CE i1)) m.
Proof.
  intros t1 a b x t2 Q C NB.
  destruct (inv_reach PE CE K u COMPAT y0 y FRESH REACH) as (ups & downs & I). pose proof (inv_exec _ _ _ _ _ _ _ I) as X. clear ups downs I.
  destruct (PropConsumer.C50_results_explained CE _ X _ _ _ _ Q) as (k & Ck & R).
  assert (k = ConsumerModel.KBeacon CE b x) as ->.
  { apply (PropConsumer.call_unique CE _ a _ _ X); [rewrite Q; apply in_app_iff; auto|exact C]. }
  destruct R as [(b' & x' & n & m & KK & (M & _) & B)|(KK & _)]; [|discriminate KK]. injection KK as <- <-.
  destruct (in_split _ _ M) as (m1 & m2 & W).
  assert (QM : y_ct _ _ y = m1 ++ ConsumerModel.XMatch CE a n m :: (m2 ++ ConsumerModel.XRet CE a (ConsumerModel.RDone CE) :: t2)) by (rewrite Q, W, <- app_assoc; reflexivity).
  assert (SN : In (ConsumerModel.XSeqNo CE a n) t1).
  { destruct (PropConsumer.match_sent CE _ _ _ a n m X Q M) as (p & _ & P). destruct p; cbn [ConsumerTrace.paid] in P.
    - destruct P as (_ & P). elim (PropConsumer.call_not_spawn CE _ a _ X C). rewrite Q. apply in_app_iff. auto.
    - destruct P as (_ & P & _). elim (PropConsumer.call_not_spawn CE _ a _ X C). rewrite Q. apply in_app_iff. auto.
    - apply P. }
  destruct (C74_taken _ _ _ _ _ _ QM C (NB n SN)) as (r' & x' & v' & l1 & l2 & i1 & h & i2 & KK & L & J & D).
  destruct KK as [KK|KK]; [discriminate KK|]. injection KK as <- <-.
  exists v', n, m, l1, (l2 ++ ConsumerModel.XMatch CE a n m :: m2), i1, h, (i2 ++ ConsumerModel.XMatch CE a n m :: m2).
  split; [exact B|]. split; [rewrite W, L, <- app_assoc; reflexivity|]. split; [rewrite W, J, <- app_assoc; reflexivity|exact D].
Qed.
End Connected.
Print Assumptions C74_taken.
Print Assumptions C74_request.
Print Assumptions C74_beacon.

(** ** Examples *)
(** The messages of PropSystem.v; the consumer sends the beacon 20 for 100 and more,
    and the server's application may send the message 10, too. *)
Definition mixed : codec fair_server peer := mkCodec fair_server peer
  (fun p : ConsumerModel.payload peer => match p with
    | ConsumerModel.PSelf _ => (1, [x61])
    | ConsumerModel.PHash _ => (2, [x0a; x0b])
    | ConsumerModel.PUser _ x _ => (if x <? 100 then 10 else 20, le 8 x)
    end)
  (fun p : ProducerModel.payload N => match p with
    | ProducerModel.PConfirm => (1, [])
    | ProducerModel.PSelf v => (2, le 16 v)
    | ProducerModel.PHash b => (3, if b then [] else [x01])
    | ProducerModel.PBeacon => (4, [])
    | ProducerModel.PAnswer x => (10, le 8 x)
    | ProducerModel.PBroadcast x => (if x <? 1000 then 20 else 10, le 8 x)
    end).
Lemma mixed_compatible : compatible fair_server peer mixed.
Proof.
  split; [reflexivity|reflexivity| |].
  - intros [| |x v]; cbn [mixed k_up fst snd]; [| |destruct (x <? 100)]; (split; [reflexivity|]); (split; [reflexivity|]); eexists; (split; [reflexivity|]); cbn; auto.
    split; [discriminate|reflexivity].
  - intros [v|b| | |x|x]; cbn [mixed k_down fst snd]; [| | | | |destruct (x <? 1000)]; (split; [reflexivity|]); try (split; [reflexivity|]); try (eexists; (split; [reflexivity|]); cbn; auto).
    + split; [reflexivity|]. split; [reflexivity|]. eexists. split; [reflexivity|]. intros L. f_equal. apply (unle_le_small 16 v). exact L.
    + destruct b; (split; [reflexivity|]); eexists; (split; [reflexivity|]); cbn; (split; [reflexivity|]); (split; [reflexivity|]); eexists; (split; [reflexivity|]); split; auto; discriminate.
Qed.

(** Two requests and a beacon at the same time; all of them reach the producer
    before the first answer is read. *)
Definition speak (a : nat) (k : ConsumerModel.kind peer) : list (instr peer) :=
  [IClient _ (ConsumerModel.LCall peer k)] ++ act a ++ act a ++ [IClient _ (ConsumerModel.LAuth peer)] ++ act a.
Definition hear : list (instr peer) :=
  [IClient _ (ConsumerModel.LNext peer); IClient _ (ConsumerModel.LApi peer true); IClient _ (ConsumerModel.LAnswer peer)].
Definition three : list (instr peer) :=
  greet ++ speak 1 (ConsumerModel.KReq peer 0 1) ++ speak 2 (ConsumerModel.KBeacon peer 0 100) ++ speak 3 (ConsumerModel.KReq peer 0 2) ++
  [IReceive _ 50; IReceive _ 52; IDeliver _ 94] ++ hear ++ hear ++ hear ++
  map (fun a => IClient _ (ConsumerModel.LAct peer a true)) [2; 3; 1]%nat.
Lemma three_reach : reach _ _ mixed (patient peer) 4 fair (after mixed 4 true three fair).
Proof. apply (after_reach mixed 4 true three fair). vm_compute. reflexivity. Qed.
Lemma three_uncontrolled n : n <> 0 -> uncontrolled fair_server 4 (y_pt _ _ (after mixed 4 true three fair)) n.
Proof.
  intros N0 j x J. 
  refine (False_ind _ (PropProducer.none_in (fun o => match o with ProducerModel.OSend _ _ _ (ProducerModel.PBroadcast _) _ => true | _ => false end) _ _ _ _ J)); [vm_compute; reflexivity|reflexivity].
Qed.

Lemma prefix_in {A} (l t1 t2 : list A) x : l = t1 ++ t2 -> In x t1 -> In x l.
Proof. intros -> J. apply in_app_iff. auto. Qed.
Lemma unnumbered a (l : list (ConsumerModel.out peer)) :
  existsb (fun o => match o with ConsumerModel.XSeqNo _ _ n => n =? 0 | _ => false end) l = false -> ~ In (ConsumerModel.XSeqNo peer a 0) l.
Proof.
  intros Z J. enough (W : existsb (fun o => match o with ConsumerModel.XSeqNo _ _ n => n =? 0 | _ => false end) l = true) by congruence.
  apply existsb_exists. eexists. split; [exact J|reflexivity].
Qed.

Example C74_taken_example :
  let y := after mixed 4 true three fair in
  compatible _ _ mixed /\ fresh _ _ 4 fair /\ reach _ _ mixed (patient peer) 4 fair y /\
  (exists t1 t2, y_ct _ _ y = t1 ++ ConsumerModel.XMatch peer 3 13 (10, le 8 7) :: t2) /\
  In (ConsumerModel.XCall peer 3 (ConsumerModel.KReq peer 0 2)) (y_ct _ _ y) /\ uncontrolled fair_server 4 (y_pt _ _ y) 13.
Proof.
  cbv zeta. split; [apply mixed_compatible|]. split; [apply begin_fresh|]. split; [apply three_reach|].
  split; [apply in_split; apply (nth_error_In _ 25); vm_compute; reflexivity|].
  split; [apply (nth_error_In _ 17); vm_compute; reflexivity|]. apply three_uncontrolled. discriminate.
Qed.
Example C74_request_example :
  let y := after mixed 4 true three fair in
  exists t1 t2, y_ct _ _ y = t1 ++ ConsumerModel.XRet peer 1 (ConsumerModel.ROk peer 0 (10, le 8 99)) :: t2 /\
    forall n, In (ConsumerModel.XSeqNo peer 1 n) t1 -> uncontrolled fair_server 4 (y_pt _ _ y) n.
Proof.
  cbv zeta. assert (J : In (ConsumerModel.XRet peer 1 (ConsumerModel.ROk peer 0 (10, le 8 99))) (y_ct _ _ (after mixed 4 true three fair)))
    by (apply (nth_error_In _ 28); vm_compute; reflexivity).
  destruct (in_split _ _ J) as (t1 & t2 & Q). exists t1, t2. split; [exact Q|]. intros n S. apply three_uncontrolled.
  pose proof (prefix_in _ _ _ _ Q S) as J'.
  intros ->. refine (unnumbered _ _ _ J'). vm_compute. reflexivity.
Qed.
Example C74_beacon_example :
  let y := after mixed 4 true three fair in
  exists t1 t2, y_ct _ _ y = t1 ++ ConsumerModel.XRet peer 2 (ConsumerModel.RDone peer) :: t2 /\
    In (ConsumerModel.XCall peer 2 (ConsumerModel.KBeacon peer 0 100)) (y_ct _ _ y) /\
    forall n, In (ConsumerModel.XSeqNo peer 2 n) t1 -> uncontrolled fair_server 4 (y_pt _ _ y) n.
Proof.
  cbv zeta. assert (J : In (ConsumerModel.XRet peer 2 (ConsumerModel.RDone peer)) (y_ct _ _ (after mixed 4 true three fair)))
    by (apply (nth_error_In _ 26); vm_compute; reflexivity).
  destruct (in_split _ _ J) as (t1 & t2 & Q). exists t1, t2. split; [exact Q|].
  split; [apply (nth_error_In _ 14); vm_compute; reflexivity|]. intros n S. apply three_uncontrolled.
  pose proof (prefix_in _ _ _ _ Q S) as J'.
  intros ->. refine (unnumbered _ _ _ J'). vm_compute. reflexivity.
Qed.

Lemma then_reach {PE CE} (K : codec PE CE) u (pol : bool) is y0 y1 : reach PE CE K (if pol then patient CE else free CE) u y0 y1 ->
  @possible PE CE K u pol is y1 = true -> reach PE CE K (if pol then patient CE else free CE) u y0 (after K u pol is y1).
Proof.
  intros R. unfold possible, after. destruct (script PE CE K u pol is y1) as [y|] eqn:Q; [|discriminate]. intros _.
  eapply script_reach; [exact R|exact Q].
Qed.

(** Why [uncontrolled]: [Control::send] (render_mod.rs l.210-219) takes the number
    from the server's application.  A message sent with the number of an unanswered
    request is returned as its answer; the producer has not even read the request. *)
Definition asked : sys fair_server peer := after mixed 4 true (greet ++ speak 1 (ConsumerModel.KReq peer 0 1)) fair.
Definition inject {PE CE} (K : codec PE CE) u n x (y : sys PE CE) : sys PE CE :=
  let t := [ProducerModel.OSend PE u n (ProducerModel.PBroadcast x) true] in
  mkSys _ _ (y_p _ _ y) (y_run _ _ y) (y_pt _ _ y ++ t) (y_c _ _ y) (y_ls _ _ y) (y_ct _ _ y) (y_ups _ _ y) (y_downs _ _ y ++ stream (down PE CE K u t)).
Lemma inject_reach {PE CE} (K : codec PE CE) A u n x y0 y : reach PE CE K A u y0 y -> reach PE CE K A u y0 (inject K u n x y).
Proof. intros R. eapply reach_move; [exact R|]. unfold inject. apply M_control. apply down_is. Qed.
Definition injected : sys fair_server peer := inject mixed 4 11 1000 asked.
Definition fooled : sys fair_server peer :=
  after mixed 4 true ([IDeliver _ 34] ++ hear ++ [IClient _ (ConsumerModel.LAct peer 1 true)]) injected.
Theorem C74_control_refuted :
  exists (PE : ProducerModel.env) (CE : ConsumerModel.cenv) (K : codec PE CE) (u : N) (y0 y : sys PE CE) a i m,
    compatible PE CE K /\ fresh PE CE u y0 /\ reach PE CE K (patient CE) u y0 y /\
    In (ConsumerModel.XRet CE a (ConsumerModel.ROk CE i m)) (y_ct _ _ y) /\
    (forall r q ids res, ~ In (ProducerModel.OCall PE u r q ids res) (y_pt _ _ y)) /\
    (forall b q ids ok, ~ In (ProducerModel.OBeacon PE u b q ids ok) (y_pt _ _ y)).
Proof.
  exists fair_server, peer, mixed, 4, fair, fooled, 1%nat, 0%nat, (10, le 8 1000).
  split; [apply mixed_compatible|]. split; [apply begin_fresh|]. split.
  { apply (then_reach mixed 4 true ([IDeliver _ 34] ++ hear ++ [IClient _ (ConsumerModel.LAct peer 1 true)]) fair injected).
    - apply inject_reach. apply (after_reach mixed 4 true (greet ++ speak 1 (ConsumerModel.KReq peer 0 1)) fair). vm_compute. reflexivity.
    - vm_compute. reflexivity. }
  split; [apply (nth_error_In _ 16); vm_compute; reflexivity|]. split; intros; intros J.
  - refine (PropProducer.none_in (fun o => match o with ProducerModel.OCall _ _ _ _ _ _ => true | _ => false end) _ _ _ _ J); [vm_compute; reflexivity|reflexivity].
  - refine (PropProducer.none_in (fun o => match o with ProducerModel.OBeacon _ _ _ _ _ _ => true | _ => false end) _ _ _ _ J); [vm_compute; reflexivity|reflexivity].
Qed.
Print Assumptions C74_control_refuted.
