(** What the application of a generated TypeScript client can rely on when it talks
    to a generated TypeScript server (C94 - C96).  [fresh u o z0]: the server has
    accepted the connection of client [u] (object [o]); [reach A u z0 z]: an
    execution of the two from there, with whatever other clients the server has, in
    which the client's application makes only the steps that [A] allows.  All
    theorems are about all executions. *)
From Coq Require Import List NArith Arith Bool Lia.
From Coq Require Import Strings.Byte.
From Verif Require Import Bytes WireModel FrameModel FrameProofs TsModel TsReader.
From Verif Require TsClientModel TsClientProofs TsClientTrace PropTsClient TsSystemOrder.
From Verif Require ProducerModel.
From Verif Require Import TsServerModel TsServerProofs TsServerTrace PropTsServer TsSystemModel TsSystemProofs TsSystemRest.
Import ListNotations.
Open Scope N_scope.

Section Statements.
Variable QE : qenv.
Variable CE : TsClientModel.tenv.
Variable K : codec QE.
Local Notation tev := (TsClientModel.tev (TsClientModel.t_msg CE)).
Local Notation tsys := (tsys QE CE).
Local Notation z_q := (z_q QE CE). Local Notation z_ql := (z_ql QE CE). Local Notation z_qt := (z_qt QE CE).
Local Notation z_c := (z_c QE CE). Local Notation z_cl := (z_cl QE CE). Local Notation z_ct := (z_ct QE CE).
Local Notation z_ups := (z_ups QE CE). Local Notation z_downs := (z_downs QE CE).
Local Notation z_lost := (z_lost QE CE). Local Notation z_app := (z_app QE CE).
Local Notation fresh := (fresh QE CE).
Local Notation reach := (reach QE CE K).
Local Notation patient := (patient CE).

(** Less than 2^64 bytes have come on the connection, in each direction. *)
Definition few (o : nat) (z : tsys) : Prop :=
  blen (concat (chunks QE o (z_qt z))) < 2 ^ 64 /\ blen (concat (TsClientTrace.chunks CE (z_ct z))) < 2 ^ 64.

(** The server's application has not discredited the client, and no handler of a
    message of the client has failed. *)
Definition content (o : nat) (z : tsys) : Prop :=
  ~ In (ODiscredit o) (z_qt z) /\
  forall t h m, In (OStart t o h m) (z_qt z) -> ~ In (OFail t) (z_qt z).

(** ** C94: a client whose application waits for [ready] is not turned away *)

Theorem C94_patient_client_stays_partial : forall u o z0 z,
  compatible QE CE K -> fresh u o z0 -> reach patient u z0 z -> few o z -> content o z ->
  ~ In (OAsk u) (z_qt z).
Proof.
  intros u o z0 z OK F R (L & L') (ND & NF). destruct (inv_reach QE CE K _ u o z0 z F R) as (ups & downs & I).
  apply (C88_compliant_client_stays QE _ _ _ _ (v_q _ _ _ _ _ _ _ _ I)). intros o' HO.
  rewrite (v_only _ _ _ _ _ _ _ _ I _ HO). split; [|split; [|split; [exact ND|exact NF]]].
  - exact (reads_compliant QE CE K OK u o _ _ _ I (order_reach QE CE K u o z0 z F R) L).
  - destruct (server_reads QE CE K OK u o _ _ _ I L) as (j & left & _ & H & _). exact H.
Qed.

(** ** C95: a call returns what the server made for that very call *)

Lemma app_split {X} (l1 l2 p : list X) x q : l1 ++ l2 = p ++ x :: q ->
  (exists q', l1 = p ++ x :: q') \/ exists e, p = l1 ++ e /\ l2 = e ++ x :: q.
Proof.
  revert p. induction l1 as [|y l1 IH]; intros p E; cbn [app] in E; [right; exists p; auto|].
  destruct p as [|y' p]; cbn [app] in E; injection E as -> E; [left; exists l1; reflexivity|].
  destruct (IH _ E) as [(q' & ->)|(e & -> & ->)]; [left; exists q'; reflexivity|right; exists e; auto].
Qed.

Lemma by_vread s l s' e1 h m e2 : TsClientModel.fire CE s l = Some (s', e1 ++ TsClientModel.VRead h m :: e2) ->
  e1 = [] /\ forall a n r, ~ In (TsClientModel.VNum a n r) e2.
Proof.
  intro F. remember (e1 ++ TsClientModel.VRead h m :: e2) as es eqn:EQ.
  assert (IN : In (TsClientModel.VRead h m) es) by (rewrite EQ; apply in_app_iff; right; left; reflexivity).
  apply TsClientTrace.fire_emits in F as [(fa & fw & fr & fs & Hl & cs & Hes & Hc & Hb & Hs)|
    [(fa & fw & fn & fm & Hl & Ha & Hr)|[(fh & fm & fq & Hl & Hd & Hq & Hb & Hx)|[(Hl & Hq & Hes & Hs)|
    [(data & fuel & fo & fb & Hl & Hd & Ht & Hs & Hes)|[(Hl & Hes)|[(Hl & Hes)|(fo & Hl & Hes)]]]]]]].
  - exfalso. destruct Hes as [Hes|Hes]; rewrite Hes in IN; [|apply in_app_iff in IN as [IN|[IN|[]]]; [|discriminate IN]]; apply Hc in IN; elim IN.
  - exfalso. apply TsClientTrace.resume_emits in Hr as [Hr|[(r & Hr)|(v & _ & _ & Hr)]]; rewrite Hr in IN; repeat destruct IN as [IN|IN]; try discriminate IN; elim IN.
  - assert (TWO : exists y, es = [TsClientModel.VRead fh fm; y] /\ (forall h' m', y <> TsClientModel.VRead h' m') /\
                    forall b n r, y <> TsClientModel.VNum b n r).
    { destruct Hx as [(a & _ & E2)|(_ & E2)]; rewrite E2; eexists; (split; [reflexivity|]); [split; discriminate|].
      destruct (TsClientModel.t_broadcast CE fm); split; discriminate. }
    destruct TWO as (y & E2 & Y1 & Y2). rewrite E2 in EQ. destruct e1 as [|x e1].
    + cbn [app] in EQ. injection EQ as _ _ <-. split; [reflexivity|]. intros b n r [W|[]]. exact (Y2 _ _ _ W).
    + exfalso. cbn [app] in EQ. injection EQ as _ EQ. destruct e1 as [|x' e1]; cbn [app] in EQ.
      * injection EQ as EQ _. exact (Y1 _ _ EQ).
      * injection EQ as _ EQ. destruct e1; discriminate EQ.
  - rewrite Hes in IN. elim IN.
  - rewrite Hes in IN. destruct IN as [IN|[]]; discriminate IN.
  - rewrite Hes in IN. destruct IN as [IN|[]]; discriminate IN.
  - rewrite Hes in IN. destruct IN as [IN|[]]; discriminate IN.
  - rewrite Hes in IN. elim IN.
Qed.

Lemma few_less o z z' es es' : few o z' -> z_qt z' = z_qt z ++ es -> z_ct z' = z_ct z ++ es' -> few o z.
Proof.
  intros (H1 & H2) E1 E2. rewrite E1, chunks_app, concat_app, blen_app in H1. rewrite E2 in H2.
  unfold TsClientTrace.chunks in H2. rewrite flat_map_app, concat_app, blen_app in H2. unfold few, TsClientTrace.chunks. lia.
Qed.

(** The message with a number is sent before an answer with it is read. *)
Lemma read_after A u o z0 z : compatible QE CE K -> fresh u o z0 -> reach A u z0 z -> few o z ->
  forall p h m q, z_ct z = p ++ TsClientModel.VRead h m :: q -> h_seq h <> 0 -> not_app QE CE (h_seq h) z ->
  exists a, In (TsClientModel.VNum a (h_seq h) TsClientModel.SOk) p.
Proof.
  intros OK F R. induction R as [|z1 z2 R IH M].
  - intros _ p h m q E. destruct F as (ls & s & tr & _ & _ & _ & _ & _ & _ & _ & H & _). rewrite H in E. destruct p; discriminate E.
  - intros FW p h m q E NZ NA.
    assert (R2 : reach A u z0 z2) by (eapply reach_move; eassumption).
    destruct (inv_reach QE CE K A u o z0 z2 F R2) as (ups & downs & I).
    assert (OLD : forall es es', z_qt z2 = z_qt z1 ++ es -> z_ct z2 = z_ct z1 ++ es' ->
      (forall x, In x (z_app z1) -> In x (z_app z2)) ->
      (forall e1 e2, es' = e1 ++ TsClientModel.VRead h m :: e2 -> e1 = [] /\ forall a n r, ~ In (TsClientModel.VNum a n r) e2) ->
      exists a, In (TsClientModel.VNum a (h_seq h) TsClientModel.SOk) p).
    { intros es es' E1 E2 HA HV. pose proof (few_less _ _ _ _ _ FW E1 E2) as FW1. rewrite E2 in E.
      destruct (app_split _ _ _ _ _ E) as [(q' & E3)|(e & -> & E3)].
      - apply (IH FW1 _ _ _ _ E3 NZ). intros k x W. apply (NA k x). apply HA. exact W.
      - destruct (HV _ _ E3) as (-> & NV). rewrite app_nil_r.
        assert (IN : In (TsClientModel.VRead h m) (z_ct z2)) by (rewrite E2, E3; apply in_app_iff; right; left; reflexivity).
        destruct (read_own QE CE K OK u o _ _ _ _ _ I (proj1 FW) (proj2 FW) IN NZ NA) as (a & w & _ & _ & _ & _ & _ & W & _).
        exists a. rewrite E2, E3 in W. apply in_app_iff in W as [W|[W|W]]; [exact W|discriminate W|elim (NV _ _ _ W)]. }
    destruct M as [z l s' es lost qs AP FI PS|z n fuel s' es lost qs l LN FI PS|z n x lost qs PS|z l s' es qs OW PA FI UP|z n fuel s' es qs l LN FI UP];
      cbn [TsSystemModel.z_qt TsSystemModel.z_ct TsSystemModel.z_app] in OLD.
    + apply (OLD es []); auto; [rewrite app_nil_r; reflexivity|]. intros [|] ? W; discriminate W.
    + apply (OLD es []); auto; [rewrite app_nil_r; reflexivity|]. intros [|] ? W; discriminate W.
    + apply (OLD [] []); try (rewrite app_nil_r; reflexivity); [intros y W; apply in_app_iff; auto|]. intros [|] ? W; discriminate W.
    + apply (OLD [] es); auto; [rewrite app_nil_r; reflexivity|]. intros e1 e2 ->. exact (by_vread _ _ _ _ _ _ _ FI).
    + apply (OLD [] es); auto; [rewrite app_nil_r; reflexivity|]. intros e1 e2 ->. exact (by_vread _ _ _ _ _ _ _ FI).
Qed.

(** The uuid that came is missing only if the one in the answer is blank. *)
Lemma by_uuid_error s l s' es a : TsClientModel.fire CE s l = Some (s', es) -> In (TsClientModel.VRet a (TsClientModel.RetErr TsClientModel.EUuid)) es ->
  exists w n m x, TsClientModel.c_act s a = Some (w, TsClientModel.TGot n m) /\ TsClientModel.t_self CE m = Some x /\ TsClientModel.t_blank CE x = true.
Proof.
  intros F IN.
  assert (BG : forall s0 b w r s1 cs, TsClientModel.begin CE s0 b w r = Some (s1, cs) -> ~ In (TsClientModel.VRet a (TsClientModel.RetErr TsClientModel.EUuid)) cs).
  { intros s0 b w r s1 cs B W. unfold TsClientModel.begin in B. destruct (TsClientModel.c_act s0 b); [discriminate B|].
    destruct r; [injection B as <- <-| |];
      try (destruct (2 ^ 32 <=? TsClientModel.c_seq s0); [discriminate B|]; destruct (TsClientModel.c_pend s0 (TsClientModel.c_seq s0)); try discriminate B; injection B as <- <-);
      repeat destruct W as [W|W]; try discriminate W; exact W. }
  apply TsClientTrace.fire_emits in F as [(fa & fw & fr & fs & Hl & cs & Hes & Hc & Hb & Hs)|
    [(fa & fw & fn & fm & Hl & Ha & Hr)|[(fh & fm & fq & Hl & Hd & Hq & Hb & Hx)|[(Hl & Hq & Hes & Hs)|
    [(data & fuel & fo & fb & Hl & Hd & Ht & Hs & Hes)|[(Hl & Hes)|[(Hl & Hes)|(fo & Hl & Hes)]]]]]]].
  - exfalso. assert (W : In (TsClientModel.VRet a (TsClientModel.RetErr TsClientModel.EUuid)) cs).
    { destruct Hes as [-> | ->]; [exact IN|]. apply in_app_iff in IN as [IN|[IN|[]]]; [exact IN|discriminate IN]. }
    destruct Hb as [Hb|(o & Hb)]; [exact (BG _ _ _ _ _ _ Hb W)|]. unfold TsClientModel.send in Hb.
    destruct (TsClientModel.c_act fs fa); [discriminate Hb|]. destruct (TsClientModel.c_obj fs o); [exact (BG _ _ _ _ _ _ Hb W)| |];
      injection Hb as <- <-; repeat destruct W as [W|W]; try discriminate W; exact W.
  - unfold TsClientModel.resume in Hr. destruct fw as [auto|v|k o|k o].
    + destruct (TsClientModel.t_self CE fm) as [x|] eqn:TS; [|injection Hr as <- <-; destruct IN as [IN|[]]; discriminate IN].
      destruct (TsClientModel.c_uuid (TsClientModel.set_uuid s (TsClientModel.keep_uuid CE (TsClientModel.c_uuid s) x))) eqn:CU;
        injection Hr as <- <-; destruct IN as [IN|[]]; [discriminate IN|]. injection IN as <-.
      exists (TsClientModel.WAssign auto), fn, fm, x. split; [exact Ha|]. split; [exact TS|].
      cbn [TsClientModel.set_uuid TsClientModel.c_uuid] in CU. unfold TsClientModel.keep_uuid in CU.
      destruct (TsClientModel.t_blank CE x); [reflexivity|]. destruct (TsClientModel.c_uuid s); discriminate CU.
    + exfalso. destruct (TsClientModel.t_hash CE fm) as [[t|]|]; injection Hr as <- <-; repeat destruct IN as [IN|IN]; try discriminate IN; exact IN.
    + exfalso. destruct (TsClientModel.c_obj s o); [| |]; injection Hr as <- <-; repeat destruct IN as [IN|IN]; try discriminate IN; try exact IN.
      destruct (TsClientModel.t_answer CE k fm); discriminate IN.
    + exfalso. destruct (TsClientModel.c_obj s o); [| |]; injection Hr as <- <-; repeat destruct IN as [IN|IN]; try discriminate IN; try exact IN.
      destruct (TsClientModel.t_beacon CE fm) as [[t|]|]; discriminate IN.
  - exfalso. destruct Hx as [(b & _ & ->)|(_ & ->)].
    + repeat destruct IN as [IN|IN]; try discriminate IN; exact IN.
    + repeat destruct IN as [IN|IN]; try discriminate IN; [|exact IN]. destruct (TsClientModel.t_broadcast CE fm); discriminate IN.
  - exfalso. subst es. elim IN.
  - exfalso. subst es. destruct IN as [IN|[]]; discriminate IN.
  - exfalso. subst es. destruct IN as [IN|[]]; discriminate IN.
  - exfalso. subst es. destruct IN as [IN|[]]; discriminate IN.
  - exfalso. subst es. elim IN.
Qed.

Lemma uuid_error ls s tr a : TsClientModel.trun CE ls s tr -> In (TsClientModel.VRet a (TsClientModel.RetErr TsClientModel.EUuid)) tr ->
  exists n m x, In (TsClientModel.VMatch a n m) tr /\ TsClientModel.t_self CE m = Some x /\ TsClientModel.t_blank CE x = true.
Proof.
  intros R. induction R as [|ls s tr l s' es R IH F]; intro IN; [elim IN|]. apply in_app_iff in IN as [IN|IN].
  - destruct (IH IN) as (n & m & x & H1 & H2). exists n, m, x. split; [apply in_app_iff; auto|exact H2].
  - destruct (by_uuid_error _ _ _ _ _ F IN) as (w & n & m & x & C & H). exists n, m, x. split; [|exact H].
    apply in_app_iff. left. exact (TsSystemOrder.got_match CE _ _ _ _ _ _ _ R C).
Qed.

(** Unless it fails before its message is sent, a call returns what decodes from
    the message that the server sent as the answer to its own message; for a request
    this is what the handler called with this message has made.  The server's
    application must not use the number of the call for a message of its own. *)
Theorem C95_own_answer_partial : forall A u o z0 z a r,
  compatible QE CE K -> fresh u o z0 -> reach A u z0 z -> few o z ->
  In (TsClientModel.VRet a r) (z_ct z) ->
  (forall e, r = TsClientModel.RetErr e ->
     e <> TsClientModel.EBusy /\ e <> TsClientModel.EGone /\ e <> TsClientModel.EPack /\ e <> TsClientModel.ESend) ->
  exists w n, In (TsClientModel.VCall a w) (z_ct z) /\ In (TsClientModel.VNum a n TsClientModel.SOk) (z_ct z) /\
   ((forall k x, In (k, x) (z_app z) -> k mod 2 ^ 32 <> n) ->
    exists h m' c p m, In (ORead o h m') (z_qt z) /\ h_seq h = n /\
      q_get QE (fst (z_msg _ K a w)) (snd (z_msg _ K a w)) = Ok m' /\
      In (OSend c u n p) (z_qt z) /\ TsClientModel.t_get CE (fst (z_pay _ K p)) (snd (z_pay _ K p)) = Ok m /\
      match w with
      | TsClientModel.WAssign _ => p = PSelf u /\ r = TsClientModel.RetUuid (z_text _ K u)
      | TsClientModel.WHash _ => p = PHash true /\ r = TsClientModel.RetHash
      | TsClientModel.WReq k _ => exists t y bs, c = ByTask t /\ p = PAnswer y /\ q_for QE m' = Some (true, k) /\
          In (OStart t o h m') (z_qt z) /\ In (OResult t y bs) (z_qt z) /\
          match TsClientModel.t_answer CE k m with
          | Some i => r = TsClientModel.RetAnswer i m
          | None => r = TsClientModel.RetErr TsClientModel.EUnexpected
          end
      | TsClientModel.WBeacon b _ => exists t, c = ByTask t /\ p = PConfirm /\ q_for QE m' = Some (false, b) /\
          In (OStart t o h m') (z_qt z) /\ r = TsClientModel.RetBeacon
      end).
Proof.
  intros A u o z0 z a r OK F R FW IN NE. destruct (inv_reach QE CE K A u o z0 z F R) as (ups & downs & I).
  pose proof IN as IN'. apply in_split in IN' as (p1 & p2 & E).
  destruct (PropTsClient.C79_own_answer CE _ _ _ _ _ _ _ (v_c _ _ _ _ _ _ _ _ I) E NE) as (w & n & m & h0 & x1 & x2 & x3 & x4 & EP & HN & FT & _ & ONE).
  assert (HC : In (TsClientModel.VCall a w) (z_ct z)).
  { rewrite E, EP. apply in_app_iff. left. apply in_app_iff. right. left. reflexivity. }
  assert (HM : In (TsClientModel.VNum a n TsClientModel.SOk) (z_ct z)).
  { rewrite E, EP. apply in_app_iff. left. apply in_app_iff. right. right. apply in_app_iff. right. left. reflexivity. }
  assert (HR : In (TsClientModel.VRead h0 m) (z_ct z)).
  { rewrite E, EP. apply in_app_iff. left. apply in_app_iff. right. right. apply in_app_iff. right. right. apply in_app_iff. right. left. reflexivity. }
  exists w, n. split; [exact HC|]. split; [exact HM|]. intro NA.
  destruct (num_small QE CE K u o _ _ _ _ _ _ I HM eq_refl) as (_ & NZ). subst n.
  destruct (read_own QE CE K OK u o _ _ _ _ _ I (proj1 FW) (proj2 FW) HR NZ NA) as (a' & w' & h & m' & c & p & H1 & H2 & H3 & H4 & H5 & H6 & H7 & H8).
  assert (a' = a) as -> by exact (num_inj QE CE K u o _ _ _ _ _ _ _ _ I H2 HM).
  assert (w' = w) as ->.
  { destruct (call_act QE CE K u o _ _ _ _ _ I HC) as (g & C). destruct (call_act QE CE K u o _ _ _ _ _ I H1) as (g' & C'). congruence. }
  exists h, m', c, p, m. do 5 (split; [assumption|]).
  destruct (z_down _ _ _ OK p) as (_ & _ & md & GD & KD). rewrite H7 in GD. injection GD as <-.
  destruct w as [auto|v|k ob|b ob]; cbn [made] in H8.
  - destruct H8 as (-> & ->). split; [reflexivity|]. destruct KD as (KD & KB).
    destruct FT as [(x & TS & FT)|(TS & _)]; [|congruence]. rewrite KD in TS. injection TS as <-.
    destruct FT as [FT|FT]; [exact FT|]. exfalso. subst r.
    destruct (uuid_error _ _ _ _ (v_c _ _ _ _ _ _ _ _ I) IN) as (n' & mm & x & VM & TS & TB).
    destruct (ONE _ _ VM) as (_ & ->). congruence.
  - destruct H8 as (-> & ->). split; [reflexivity|]. destruct KD as (e & KD & KE). destruct KE as (_ & KE). rewrite (KE eq_refl) in KD.
    destruct FT as [(_ & FT)|[(t & FT & _)|(FT & _)]]; [exact FT|congruence|congruence].
  - destruct H8 as (t & y & bs & -> & -> & HF & HS & HO). exists t, y, bs. do 5 (split; [solve [auto]|]).
    destruct FT as [(i & FT & ->)|(FT & ->)]; rewrite FT; reflexivity.
  - destruct H8 as (t & -> & -> & HF & HS). exists t. do 4 (split; [solve [auto]|]).
    destruct FT as [(_ & FT)|[(x & FT & _)|(FT & _)]]; [exact FT|congruence|congruence].
Qed.

(** The uuid that [ready] gives is the one by which the server knows the client. *)
Theorem C95_ready_gives_own_uuid : forall A u o z0 z v,
  compatible QE CE K -> fresh u o z0 -> reach A u z0 z -> few o z ->
  (forall k x, In (k, x) (z_app z) -> k mod 2 ^ 32 = 0) ->
  In (TsClientModel.VReady v) (z_ct z) -> v = z_text _ K u.
Proof.
  intros A u o z0 z v OK F R FW NA IN. destruct (inv_reach QE CE K A u o z0 z F R) as (ups & downs & I).
  apply in_split in IN as (p1 & p2 & E).
  destruct (PropTsClient.C83_ready_after_handshake CE _ _ _ _ _ _ (v_c _ _ _ _ _ _ _ _ I) E) as
    (a & na & ma & b & nb & mb & x1 & x2 & x3 & x4 & x5 & EP & TS & _).
  assert (HC : In (TsClientModel.VCall a (TsClientModel.WAssign true)) (z_ct z)).
  { rewrite E, EP. apply in_app_iff. left. apply in_app_iff. right. left. reflexivity. }
  assert (HM : In (TsClientModel.VNum a na TsClientModel.SOk) (z_ct z)).
  { rewrite E, EP. apply in_app_iff. left. apply in_app_iff. right. right. left. reflexivity. }
  assert (VM : exists y1 y2, z_ct z = y1 ++ TsClientModel.VMatch a na ma :: y2).
  { apply in_split. rewrite E, EP, !in_app_iff. cbn [In]. tauto. }
  destruct VM as (y1 & y2 & VM). destruct (TsClientTrace.match_after_read CE _ _ _ _ _ _ _ _ (v_c _ _ _ _ _ _ _ _ I) VM) as (y & h & -> & HN).
  assert (HR : In (TsClientModel.VRead h ma) (z_ct z)) by (rewrite VM, <- app_assoc; apply in_app_iff; right; left; reflexivity).
  destruct (num_small QE CE K u o _ _ _ _ _ _ I HM eq_refl) as (_ & NZ). subst na.
  destruct (read_own QE CE K OK u o _ _ _ _ _ I (proj1 FW) (proj2 FW) HR NZ) as (a' & w' & h' & m' & c & p & H1 & H2 & H3 & H4 & H5 & H6 & H7 & H8).
  { intros k x W W'. rewrite (NA _ _ W) in W'. auto. }
  assert (a' = a) as -> by exact (num_inj QE CE K u o _ _ _ _ _ _ _ _ I H2 HM).
  assert (w' = TsClientModel.WAssign true) as ->.
  { destruct (call_act QE CE K u o _ _ _ _ _ I HC) as (g & C). destruct (call_act QE CE K u o _ _ _ _ _ I H1) as (g' & C'). congruence. }
  cbn [made] in H8. destruct H8 as (-> & ->). destruct (z_down _ _ _ OK (PSelf u)) as (_ & _ & md & GD & KD & _).
  rewrite H7 in GD. injection GD as <-. congruence.
Qed.

(** ** C96: what is left when nothing happens any more *)

(** No bytes are under way, the server has done what it has to do for this client,
    the client has done what it has to do. *)
Definition at_rest (o : nat) (z : tsys) : Prop :=
  z_ups z = [] /\ z_downs z = [] /\ p_loop (z_q z) <> Some o /\
  (forall t j, p_task (z_q z) t = Some j -> j_obj j = o -> j_stage j = QDone) /\
  PropTsClient.at_rest CE (z_c z).

(** At rest, every call of a patient application that could be sent has ended, if
    the server's application is content and its transport has refused nothing. *)
Theorem C96_calls_end_partial : forall u o z0 z a n,
  compatible QE CE K -> fresh u o z0 -> reach patient u z0 z -> few o z -> content o z ->
  z_lost z = [] -> at_rest o z -> (forall k x, In (k, x) (z_app z) -> k mod 2 ^ 32 <> n) ->
  In (TsClientModel.VNum a n TsClientModel.SOk) (z_ct z) -> exists r, In (TsClientModel.VRet a r) (z_ct z).
Proof.
  intros u o z0 z a n OK F R FW (ND & NF) ZL RS NA IN. destruct (inv_reach QE CE K _ u o z0 z F R) as (ups & downs & I).
  destruct (all_answered QE CE K OK u o _ _ _ _ _ I (order_reach QE CE K u o z0 z F R) (proj1 FW) (proj2 FW) ND NF ZL RS IN) as (h & m & HR & HN).
  destruct (num_small QE CE K u o _ _ _ _ _ _ I IN eq_refl) as (_ & NZ). subst n.
  apply in_split in HR as (p & q & E).
  destruct (read_after _ u o z0 z OK F R FW _ _ _ _ E NZ NA) as (a' & W).
  assert (a' = a) as ->.
  { refine (num_inj QE CE K u o _ _ _ _ _ _ _ _ I _ IN). rewrite E. apply in_app_iff. left. exact W. }
  apply in_split in W as (p1 & p2 & ->). rewrite <- app_assoc in E. cbn [app] in E.
  destruct RS as (_ & _ & _ & _ & RS).
  destruct (PropTsClient.C80_answered_calls_end_partial CE _ _ _ _ _ _ _ h m (v_c _ _ _ _ _ _ _ _ I) RS E) as (r & HR).
  { apply in_app_iff. right. left. reflexivity. }
  { reflexivity. }
  exists r. rewrite E. apply in_app_iff. right. right. exact HR.
Qed.

(** At rest, a client that was connected and could send is ready. *)
Theorem C96_ready_partial : forall u o z0 z,
  compatible QE CE K -> fresh u o z0 -> reach patient u z0 z -> few o z -> content o z ->
  z_lost z = [] -> at_rest o z -> (forall k x, In (k, x) (z_app z) -> k mod 2 ^ 32 = 0) ->
  In TsClientModel.VConnected (z_ct z) ->
  (forall a n r, In (TsClientModel.VNum a n r) (z_ct z) -> r = TsClientModel.SOk) ->
  In (TsClientModel.VReady (z_text _ K u)) (z_ct z).
Proof.
  intros u o z0 z OK F R FW CT ZL RS NA VC SO. destruct (inv_reach QE CE K _ u o z0 z F R) as (ups & downs & I).
  assert (ENDS : forall a n, In (a, n) (sent_up CE (z_ct z)) -> exists r, In (TsClientModel.VRet a r) (z_ct z)).
  { intros a n W. apply (in_sent_up CE) in W. destruct (num_small QE CE K u o _ _ _ _ _ _ I W eq_refl) as (_ & NZ).
    apply (C96_calls_end_partial u o z0 z a n OK F R FW CT ZL RS); [|exact W]. intros k x HK HE. rewrite (NA _ _ HK) in HE. auto. }
  assert (UNSENT : forall a w, TsClientModel.c_act (z_c z) a = Some (w, TsClientModel.TDone) -> TsClientProofs.on w = None ->
            exists n, In (a, n) (sent_up CE (z_ct z))).
  { intros a w C ON. pose proof (TsClientProofs.i_shape CE _ _ (TsClientProofs.trun_inv CE _ _ _ (v_c _ _ _ _ _ _ _ _ I)) a) as SH.
    rewrite C in SH. cbn [TsClientProofs.shape] in SH.
    assert (LI : forall n r, In (TsClientModel.VNum a n r) (TsClientProofs.life CE a (z_ct z)) -> In (a, n) (sent_up CE (z_ct z))).
    { intros n r W. apply filter_In in W as (W & _). rewrite (SO _ _ _ W) in W. apply (in_sent_up CE). exact W. }
    destruct SH as [(ob & e & ON' & _)|[(n & r & e & _ & _ & L)|(n & m & r & _ & L)]]; [congruence| |];
      exists n; eapply LI; rewrite L; right; left; reflexivity. }
  assert (DONE : forall a w g, TsClientModel.c_act (z_c z) a = Some (w, g) -> (exists n, In (a, n) (sent_up CE (z_ct z))) -> g = TsClientModel.TDone).
  { intros a w g C (n & W). destruct (ENDS _ _ W) as (r & HR). destruct RS as (_ & _ & _ & _ & _ & RS). pose proof (RS a) as RA. rewrite C in RA.
    destruct g as [k| | |]; try (elim RA; fail); [|reflexivity]. exfalso.
    pose proof (TsClientProofs.i_shape CE _ _ (TsClientProofs.trun_inv CE _ _ _ (v_c _ _ _ _ _ _ _ _ I)) a) as SH. rewrite C in SH. cbn [TsClientProofs.shape] in SH.
    apply (TsClientTrace.in_life CE a) in HR; [|apply Nat.eqb_refl]. rewrite SH in HR. repeat destruct HR as [HR|HR]; try discriminate HR; exact HR. }
  assert (OWN : forall a w n m, TsClientModel.c_act (z_c z) a = Some (w, TsClientModel.TDone) -> In (TsClientModel.VMatch a n m) (z_ct z) ->
            exists h' m' c p, TsClientModel.t_get CE (fst (z_pay _ K p)) (snd (z_pay _ K p)) = Ok m /\ made QE CE u o z w h' m' c p).
  { intros a w n m C VM. apply in_split in VM as (y1 & y2 & VM).
    destruct (TsClientTrace.match_after_read CE _ _ _ _ _ _ _ _ (v_c _ _ _ _ _ _ _ _ I) VM) as (y & h & -> & HN).
    assert (HR : In (TsClientModel.VRead h m) (z_ct z)) by (rewrite VM, <- app_assoc; apply in_app_iff; right; left; reflexivity).
    pose proof (TsClientProofs.i_shape CE _ _ (TsClientProofs.trun_inv CE _ _ _ (v_c _ _ _ _ _ _ _ _ I)) a) as SH. rewrite C in SH. cbn [TsClientProofs.shape] in SH.
    assert (VL : In (TsClientModel.VMatch a n m) (TsClientProofs.life CE a (z_ct z))).
    { apply (TsClientTrace.in_life CE a); [apply Nat.eqb_refl|]. rewrite VM. apply in_app_iff. right. left. reflexivity. }
    destruct SH as [(ob & e & _ & _ & L)|[(n' & r & e & _ & _ & L)|(n' & m' & r & _ & L)]]; rewrite L in VL;
      repeat destruct VL as [VL|VL]; try discriminate VL; try (elim VL; fail). injection VL as -> ->.
    assert (LI : forall x, In x (TsClientProofs.life CE a (z_ct z)) -> In x (z_ct z)) by (intros x W; apply filter_In in W; tauto).
    assert (HM : In (TsClientModel.VNum a n TsClientModel.SOk) (z_ct z)) by (apply LI; rewrite L; right; left; reflexivity).
    destruct (num_small QE CE K u o _ _ _ _ _ _ I HM eq_refl) as (_ & NZ). subst n.
    destruct (read_own QE CE K OK u o _ _ _ _ _ I (proj1 FW) (proj2 FW) HR NZ) as (a' & w' & h' & mm & c & p & H1 & H2 & H3 & H4 & H5 & H6 & H7 & H8).
    { intros k x W W'. rewrite (NA _ _ W) in W'. auto. }
    assert (a' = a) as -> by exact (num_inj QE CE K u o _ _ _ _ _ _ _ _ I H2 HM).
    destruct (call_act QE CE K u o _ _ _ _ _ I H1) as (g' & C'). rewrite C in C'. injection C' as <- _.
    exists h', mm, c, p. auto. }
  assert (RDY : exists v, In (TsClientModel.VReady v) (z_ct z)).
  { destruct (order_reach QE CE K u o z0 z F R) as [H1 H2 H3 H4|a g H1 H2 H3 H4 H5|a b v g n H1 H0 H2 H3 H4 H5 H6|a b v n k rest H1 H0 H2 H3 H4 H5 HR H6].
    - elim (H1 VC).
    - exfalso. destruct H5 as [(n & H5 & H6)|(H5 & ->)].
      + assert (g = TsClientModel.TDone) as -> by (apply (DONE _ _ _ H2); exists n; rewrite H5; left; reflexivity).
        destruct (H6 eq_refl) as (m & VM & NU). destruct (OWN _ _ _ _ H2 VM) as (h' & m' & c & p & G & MD). cbn [made] in MD.
        destruct MD as (-> & ->). destruct (z_down _ _ _ OK (PSelf u)) as (_ & _ & md & GD & KD & KB). rewrite G in GD. injection GD as <-.
        destruct NU as [NU|(x & NU & NB)]; congruence.
      + destruct (UNSENT _ _ H2 eq_refl) as (n & W). rewrite H5 in W. elim W.
    - exfalso. destruct H6 as [(k & H6 & H7)|(H6 & ->)].
      + assert (g = TsClientModel.TDone) as -> by (apply (DONE _ _ _ H3); exists k; rewrite H6; right; left; reflexivity).
        destruct (H7 eq_refl) as (m & VM & NH). destruct (OWN _ _ _ _ H3 VM) as (h' & m' & c & p & G & MD). cbn [made] in MD.
        destruct MD as (-> & ->). destruct (z_down _ _ _ OK (PHash true)) as (_ & _ & md & GD & e & KD & KE). rewrite G in GD. injection GD as <-.
        destruct KE as (_ & KE). rewrite (KE eq_refl) in KD. auto.
      + destruct (UNSENT _ _ H3 eq_refl) as (k & W). rewrite H6 in W. destruct W as [W|[]]. injection W as W _. auto.
    - exact HR. }
  destruct RDY as (v & RDY). rewrite <- (C95_ready_gives_own_uuid _ u o z0 z v OK F R FW NA RDY). exact RDY.
Qed.

End Statements.

(** ** Executions to look at *)

(** Who makes the next step; whole messages, nothing refused, clock at 0. *)
Inductive cmd {X : Type} :=
| ByServer (l : qlabel X) | Receive | ByApp (n : N) (x : X) | ByClient (l : TsClientModel.label) | Deliver.
Arguments cmd X : clear implicits.

Section Play.
Variable QE : qenv.
Variable CE : TsClientModel.tenv.
Variable K : codec QE.
Variable careful : bool.
Local Notation tsys := (tsys QE CE).
Local Notation tev := (TsClientModel.tev (TsClientModel.t_msg CE)).

Definition policy : list tev -> TsClientModel.label -> Prop := if careful then patient CE else fun _ _ => True.

Definition is_ready (e : tev) : bool := match e with TsClientModel.VReady _ => true | _ => false end.
Definition is_conn (e : tev) : bool := match e with TsClientModel.VConnected => true | _ => false end.
Definition may (t : list tev) (l : TsClientModel.label) : bool :=
  match l with
  | TsClientModel.LData _ _ | TsClientModel.LDisconnected => false
  | TsClientModel.LConnected _ _ => negb (existsb is_conn t)
  | TsClientModel.LSend _ _ _ => negb careful || existsb is_ready t
  | TsClientModel.LAssign _ _ => negb careful
  | _ => true
  end.

Definition declaredb (w : TsClientModel.what) : bool :=
  match w with
  | TsClientModel.WReq r _ => Nat.ltb r (z_reqs _ K)
  | TsClientModel.WBeacon b _ => Nat.ltb b (z_beacons _ K)
  | _ => true
  end.
Fixpoint call_of (a : nat) (t : list tev) : option TsClientModel.what :=
  match t with
  | [] => None
  | TsClientModel.VCall b w :: t => if Nat.eqb b a then Some w else call_of a t
  | _ :: t => call_of a t
  end.
Fixpoint pack_up (t : list tev) (l : list (nat * N)) : option (list packet) :=
  match l with
  | [] => Some []
  | (a, n) :: l =>
    match call_of a t, pack_up t l with
    | Some w, Some qs => if declaredb w then Some (frame (TsClientModel.t_sig CE) (z_msg _ K a w) n 0 :: qs) else None
    | _, _ => None
    end
  end.
Definition pack_down (ms : list (N * qpay (q_out QE))) : list packet :=
  map (fun m => frame (q_sig QE) (z_pay _ K (snd m)) (fst m) 0) ms.

Definition apartb (u : N) (l : qlabel (q_out QE)) : bool :=
  match l with LConnected v | LDisconnected v | LData v _ _ => negb (v =? u) | _ => true end.

Definition go (u : N) (z : tsys) (c : cmd (q_out QE)) : option tsys :=
  let '(mkTsys _ _ q ql qt cs cl ct ups downs lost app) := z in
  match c with
  | ByServer l =>
    if apartb u l then
      match fire QE q l with
      | Some (s', es) => Some (mkTsys QE CE s' (ql ++ [l]) (qt ++ es) cs cl ct ups (downs ++ stream (pack_down (handed QE u es))) (lost ++ []) app)
      | None => None
      end
    else None
  | Receive =>
    if Nat.ltb 0 (length ups) then
      let l := LData u (firstn (length ups) ups) 9 in
      match fire QE q l with
      | Some (s', es) => Some (mkTsys QE CE s' (ql ++ [l]) (qt ++ es) cs cl ct (skipn (length ups) ups) (downs ++ stream (pack_down (handed QE u es))) (lost ++ []) app)
      | None => None
      end
    else None
  | ByApp n x => Some (mkTsys QE CE q ql qt cs cl ct ups (downs ++ stream (pack_down [(n, PAnswer x)])) (lost ++ []) (app ++ [(n, x)]))
  | ByClient l =>
    if may ct l then
      match TsClientModel.fire CE cs l with
      | Some (s', es) =>
        match pack_up es (sent_up CE es) with
        | Some qs => Some (mkTsys QE CE q ql qt s' (cl ++ [l]) (ct ++ es) (ups ++ stream qs) downs lost app)
        | None => None
        end
      | None => None
      end
    else None
  | Deliver =>
    let l := TsClientModel.LData (firstn (length downs) downs) 9 in
    match TsClientModel.fire CE cs l with
    | Some (s', es) =>
      match pack_up es (sent_up CE es) with
      | Some qs => Some (mkTsys QE CE q ql qt s' (cl ++ [l]) (ct ++ es) (ups ++ stream qs) (skipn (length downs) downs) lost app)
      | None => None
      end
    | None => None
    end
  end.
Fixpoint play (u : N) (z : tsys) (cs : list (cmd (q_out QE))) : option tsys :=
  match cs with
  | [] => Some z
  | c :: cs => match go u z c with Some z' => play u z' cs | None => None end
  end.

Lemma packed ms : passed QE K ms [] (pack_down ms).
Proof. induction ms as [|[n p] ms IH]; [constructor|]. exact (passed_on QE K n p 0 ms [] _ IH). Qed.

Lemma call_in a w t : call_of a t = Some w -> In (TsClientModel.VCall a w) t.
Proof.
  induction t as [|e t IH]; cbn [call_of]; intro H; [discriminate H|]. destruct e; try (right; exact (IH H)).
  destruct (Nat.eqb_spec a0 a) as [-> |_]; [injection H as ->; left; reflexivity|right; exact (IH H)].
Qed.

Lemma packed_up t qs : pack_up t (sent_up CE t) = Some qs -> up_packets QE CE K t qs.
Proof.
  unfold up_packets. generalize (sent_up CE t) as l. intro l. revert qs.
  induction l as [|[a n] l IH]; intros qs H; cbn [pack_up] in H; [injection H as <-; constructor|].
  destruct (call_of a t) as [w|] eqn:C; [|discriminate H]. destruct (pack_up t l) as [qs'|]; [|discriminate H].
  destruct (declaredb w) eqn:D; [|discriminate H]. injection H as <-. constructor; [|apply IH; reflexivity].
  exists w, 0. split; [exact (call_in _ _ _ C)|]. split; [|reflexivity].
  destruct w; cbn [declaredb declared] in *; auto; apply Nat.ltb_lt; exact D.
Qed.

Lemma go_move u z c z' : go u z c = Some z' -> move QE CE K policy u z z'.
Proof.
  destruct z as [q ql qt cs cl ct ups downs lost app]. destruct c as [l| |n x|l|]; unfold go; intro H.
  - destruct (apartb u l) eqn:AP; [|discriminate H]. destruct (fire QE q l) as [[s' es]|] eqn:F; [|discriminate H]. injection H as <-.
    refine (Z_server QE CE K policy u (mkTsys QE CE q ql qt cs cl ct ups downs lost app) l s' es [] _ _ F (packed _)).
    destruct l; cbn [apartb apart] in *; auto; intros ->; rewrite N.eqb_refl in AP; discriminate AP.
  - destruct (Nat.ltb 0 (length ups)) eqn:L; [|discriminate H]. destruct (fire QE q _) as [[s' es]|] eqn:F; [|discriminate H]. injection H as <-.
    refine (Z_receive QE CE K policy u (mkTsys QE CE q ql qt cs cl ct ups downs lost app) (length ups) 9 s' es [] _ _ F (packed _)).
    apply Nat.ltb_lt in L. cbn [TsSystemModel.z_ups]. lia.
  - injection H as <-. exact (Z_control QE CE K policy u (mkTsys QE CE q ql qt cs cl ct ups downs lost app) n x [] _ (packed _)).
  - destruct (may ct l) eqn:MY; [|discriminate H]. destruct (TsClientModel.fire CE cs l) as [[s' es]|] eqn:F; [|discriminate H].
    destruct (pack_up es (sent_up CE es)) as [qs|] eqn:P; [|discriminate H]. injection H as <-.
    refine (Z_client QE CE K policy u (mkTsys QE CE q ql qt cs cl ct ups downs lost app) l s' es qs _ _ F (packed_up _ _ P)); cbn [TsSystemModel.z_ct].
    + destruct l; cbn [may own_step] in *; auto; try discriminate MY. intro W.
      assert (E : existsb is_conn ct = true) by (apply existsb_exists; eexists; split; [exact W|reflexivity]). rewrite E in MY. discriminate MY.
    + unfold policy. destruct careful eqn:CA; [|exact I].
      destruct l; cbn [may patient] in *; auto; rewrite CA in MY; cbn [negb orb] in MY; try discriminate MY.
      apply existsb_exists in MY as (e & W & Y). destruct e; try discriminate Y. eexists. exact W.
  - destruct (TsClientModel.fire CE cs _) as [[s' es]|] eqn:F; [|discriminate H].
    destruct (pack_up es (sent_up CE es)) as [qs|] eqn:P; [|discriminate H]. injection H as <-.
    refine (Z_deliver QE CE K policy u (mkTsys QE CE q ql qt cs cl ct ups downs lost app) (length downs) 9 s' es qs _ F (packed_up _ _ P)).
    cbn [TsSystemModel.z_downs]. lia.
Qed.

Lemma play_reach u z0 cs : forall z z', reach QE CE K policy u z0 z -> play u z cs = Some z' -> reach QE CE K policy u z0 z'.
Proof.
  induction cs as [|c cs IH]; intros z z' R H; cbn [play] in H; [injection H as <-; exact R|].
  destruct (go u z c) as [z1|] eqn:G; [|discriminate H]. apply (IH z1); [|exact H]. exact (reach_move _ _ _ _ _ _ _ _ R (go_move _ _ _ _ G)).
Qed.
End Play.

(** The server of PropTsServer.v and the client of PropTsClient.v, generated from a
    workflow with two requests and a beacon. *)
Definition SE : qenv := demo_env emit ProducerModel.IEmit.
Definition KE : TsClientModel.tenv := PropTsClient.demo_env.
Definition text (u : N) : bytes := if u =? 5 then [x35] else [x30].
Definition demo_codec : codec SE :=
  mkCodec SE
    (fun _ w => match w with
                | TsClientModel.WAssign _ => (1, [])
                | TsClientModel.WHash _ => (2, [x61])
                | TsClientModel.WReq O _ => (3, [])
                | TsClientModel.WReq _ _ => (4, [])
                | TsClientModel.WBeacon _ _ => (5, [])
                end)
    (fun p => match p with
              | PSelf u => (1, text u)
              | PHash b => (2, if b then [] else [x66])
              | PConfirm => (3, [])
              | PAnswer x => if (x : N) =? 10 then (4, [x61]) else if x =? 11 then (5, []) else (6, [])
              end)
    2 1 text.

Lemma demo_compatible : compatible SE KE demo_codec.
Proof.
  constructor; [reflexivity|reflexivity| |].
  - intros a w D. destruct w as [b|v|r ob|b ob]; cbn in D.
    + do 2 (split; [reflexivity|]). eexists. split; [reflexivity|]. repeat split.
    + do 2 (split; [reflexivity|]). eexists. split; [reflexivity|]. repeat split.
    + destruct r as [|[|r]]; [| |lia]; do 2 (split; [reflexivity|]); eexists; (split; [reflexivity|]); repeat split.
    + destruct b as [|b]; [|lia]. do 2 (split; [reflexivity|]). eexists. split; [reflexivity|]. repeat split.
  - intros [u|b|x|]; cbn [z_pay demo_codec].
    + cbn [z_text demo_codec]. unfold text. destruct (u =? 5); do 2 (split; [reflexivity|]); eexists; (split; [reflexivity|]); split; reflexivity.
    + destruct b; do 2 (split; [reflexivity|]); eexists; (split; [reflexivity|]); eexists; (split; [reflexivity|]); split; intro W; solve [reflexivity|discriminate W].
    + destruct (x =? 10); [|destruct (x =? 11)]; do 2 (split; [reflexivity|]); eexists; split; reflexivity || exact I.
    + do 2 (split; [reflexivity|]). eexists. split; reflexivity.
Qed.

Definition start : option (tsys SE KE) :=
  match fire SE qinit (LConnected 5) with
  | Some (s, es) => Some (mkTsys SE KE s [LConnected 5] es (TsClientModel.tinit) [] [] [] [] [] [])
  | None => None
  end.

Lemma demo_play careful cs (P : tsys SE KE -> Prop) :
  match start with
  | Some z => match play SE KE demo_codec careful 5 z cs with Some z' => P z' | None => False end
  | None => False
  end ->
  exists z0 z, fresh SE KE 5 0 z0 /\ reach SE KE demo_codec (policy KE careful) 5 z0 z /\ P z.
Proof.
  destruct start as [z0|] eqn:S; [|intros []]. destruct (play _ _ _ _ _ z0 cs) as [z|] eqn:R; [|intros []]. intro H.
  exists z0, z. split; [|split; [|exact H]].
  - unfold start in S. cbn in S. injection S as <-. exists [], qinit, []. split; [constructor|]. split; [intros v []|]. do 9 (split; [reflexivity|]). reflexivity.
  - exact (play_reach _ _ _ _ _ _ _ _ _ (reach_start _ _ _ _ _ _) R).
Qed.

Definition up1 : list (cmd N) := [Receive; ByServer LNext; ByServer LNext].
Definition down1 : list (cmd N) := [Deliver; ByClient TsClientModel.LNext; ByClient TsClientModel.LNext].
Definition shake : list (cmd N) :=
  ByClient (TsClientModel.LConnected 0 TsClientModel.SOk) :: up1 ++ down1 ++
  [ByClient (TsClientModel.LRun 0); ByClient (TsClientModel.LHash 0 1 TsClientModel.SOk)] ++ up1 ++ down1 ++ [ByClient (TsClientModel.LRun 1)].
(** promise 2 asks; the handler answers 11 *)
Definition asks : list (cmd N) :=
  shake ++ [ByClient (TsClientModel.LSend 2 (TsClientModel.WReq 0 0) TsClientModel.SOk)] ++ up1 ++
  [ByServer (LEnd 0 (HAnswer 11 [] true)); ByServer (LSent 0 true None); ByServer (LLast 0 true)] ++
  down1 ++ [ByClient (TsClientModel.LRun 2)].

Ltac never H := match type of H with
  | False => destruct H
  | _ \/ _ => destruct H as [H|H]; [discriminate H|never H]
  | _ => discriminate H
  end.
Ltac member := repeat (first [left; reflexivity|right]).
Ltac quiet := split; [let Hq := fresh in intro Hq; never Hq|
  let Hq := fresh in intros ? ? ? _ Hq; never Hq].
Ltac resting := split; [reflexivity|split; [reflexivity|split; [discriminate|split; [intros tr jr Hr Ho; destruct tr as [|tr]; try discriminate Hr; injection Hr as <-; reflexivity
  |split; [reflexivity|intros [|[|[|ar]]]; exact I]]]]].

Example C94_example : compatible SE KE demo_codec /\ exists z0 z,
  fresh SE KE 5 0 z0 /\ reach SE KE demo_codec (patient KE) 5 z0 z /\
  few SE KE 0 z /\ content SE KE 0 z /\ exists h m, In (OStart 0 0 h m) (z_qt _ _ z).
Proof.
  split; [exact demo_compatible|]. apply (demo_play true asks). vm_compute. split; [split; reflexivity|]. split; [quiet|].
  do 2 eexists. member.
Qed.

(** An application that does not wait is turned away although it, the server's
    application and both transports do nothing wrong otherwise. *)
Theorem C94_early_call_refuted : exists QE CE K u o z0 z,
  compatible QE CE K /\ fresh QE CE u o z0 /\ reach QE CE K (fun _ _ => True) u z0 z /\
  few QE CE o z /\ content QE CE o z /\ z_lost _ _ z = [] /\ In (OAsk u) (z_qt _ _ z).
Proof.
  exists SE, KE, demo_codec, 5, 0%nat.
  destruct (demo_play false
    ([ByClient (TsClientModel.LConnected 0 TsClientModel.SOk);
      ByClient (TsClientModel.LSend 1 (TsClientModel.WReq 0 0) TsClientModel.SOk)] ++ up1 ++ [ByServer LNext])
    (fun z => few SE KE 0 z /\ content SE KE 0 z /\ z_lost _ _ z = [] /\ In (OAsk 5) (z_qt _ _ z))) as (z0 & z & F & R & H).
  - vm_compute. split; [split; reflexivity|]. split; [quiet|]. split; [reflexivity|member].
  - exists z0, z. split; [exact demo_compatible|]. split; [exact F|]. split; [exact R|exact H].
Qed.

Example C95_example : compatible SE KE demo_codec /\ exists z0 z,
  fresh SE KE 5 0 z0 /\ reach SE KE demo_codec (patient KE) 5 z0 z /\
  few SE KE 0 z /\ z_app _ _ z = [] /\ In (TsClientModel.VReady [x35]) (z_ct _ _ z) /\
  In (TsClientModel.VRet 2 (TsClientModel.RetAnswer 1 (5, []))) (z_ct _ _ z).
Proof.
  split; [exact demo_compatible|]. apply (demo_play true asks). vm_compute.
  split; [split; reflexivity|]. split; [reflexivity|]. split; member.
Qed.

(** If the server's application sends a message with the number of a call, the call
    returns it, although no handler has answered anything. *)
Theorem C95_same_number_refuted : exists QE CE K u o z0 z a i m,
  compatible QE CE K /\ fresh QE CE u o z0 /\ reach QE CE K (patient CE) u z0 z /\
  few QE CE o z /\ content QE CE o z /\
  In (TsClientModel.VRet a (TsClientModel.RetAnswer i m)) (z_ct _ _ z) /\
  forall t x bs, ~ In (OResult t x bs) (z_qt _ _ z).
Proof.
  exists SE, KE, demo_codec, 5, 0%nat.
  destruct (demo_play true
    (shake ++ [ByClient (TsClientModel.LSend 2 (TsClientModel.WReq 0 0) TsClientModel.SOk); ByApp 3 10] ++ down1 ++ [ByClient (TsClientModel.LRun 2)])
    (fun z => few SE KE 0 z /\ content SE KE 0 z /\ In (TsClientModel.VRet 2 (TsClientModel.RetAnswer 0 (4, [x61]))) (z_ct _ _ z) /\
       forall t x bs, ~ In (OResult t x bs) (z_qt _ _ z))) as (z0 & z & F & R & H).
  - vm_compute. split; [split; reflexivity|]. split; [quiet|]. split; [member|].
    intros t x bs Hq. never Hq.
  - exists z0, z, 2%nat, 0%nat, (4, [x61]). split; [exact demo_compatible|]. split; [exact F|]. split; [exact R|exact H].
Qed.

Example C96_example : compatible SE KE demo_codec /\ exists z0 z,
  fresh SE KE 5 0 z0 /\ reach SE KE demo_codec (patient KE) 5 z0 z /\
  few SE KE 0 z /\ content SE KE 0 z /\ z_lost _ _ z = [] /\ at_rest SE KE 0 z /\ z_app _ _ z = [] /\
  In TsClientModel.VConnected (z_ct _ _ z) /\
  In (TsClientModel.VNum 2 3 TsClientModel.SOk) (z_ct _ _ z) /\
  (forall a n r, In (TsClientModel.VNum a n r) (z_ct _ _ z) -> r = TsClientModel.SOk).
Proof.
  split; [exact demo_compatible|]. apply (demo_play true asks). vm_compute.
  split; [split; reflexivity|]. split; [quiet|]. split; [reflexivity|]. split; [resting|]. split; [reflexivity|].
  split; [member|]. split; [member|]. intros a n r Hq. repeat destruct Hq as [Hq|Hq]; try discriminate Hq; try (injection Hq as _ _ <-; reflexivity); elim Hq.
Qed.

(** [assign] after the handshake is never answered. *)
Theorem C96_assign_refuted : exists QE CE K u o z0 z a n,
  compatible QE CE K /\ fresh QE CE u o z0 /\ reach QE CE K (fun _ _ => True) u z0 z /\
  few QE CE o z /\ content QE CE o z /\ z_lost _ _ z = [] /\ at_rest QE CE o z /\ z_app _ _ z = [] /\
  In (TsClientModel.VNum a n TsClientModel.SOk) (z_ct _ _ z) /\ forall r, ~ In (TsClientModel.VRet a r) (z_ct _ _ z).
Proof.
  exists SE, KE, demo_codec, 5, 0%nat.
  destruct (demo_play false (shake ++ [ByClient (TsClientModel.LAssign 2 TsClientModel.SOk); Receive; ByServer LNext])
    (fun z => few SE KE 0 z /\ content SE KE 0 z /\ z_lost _ _ z = [] /\ at_rest SE KE 0 z /\ z_app _ _ z = [] /\
       In (TsClientModel.VNum 2 3 TsClientModel.SOk) (z_ct _ _ z) /\ forall r, ~ In (TsClientModel.VRet 2 r) (z_ct _ _ z))) as (z0 & z & F & R & H).
  - vm_compute. split; [split; reflexivity|]. split; [quiet|]. split; [reflexivity|]. split; [resting|].
    split; [reflexivity|]. split; [member|]. intros r Hq. never Hq.
  - exists z0, z, 2%nat, 3. split; [exact demo_compatible|]. split; [exact F|]. split; [exact R|exact H].
Qed.

(** A handler that fails leaves the call without an end: the client is not told. *)
Theorem C96_failing_handler_refuted : exists QE CE K u o z0 z a n,
  compatible QE CE K /\ fresh QE CE u o z0 /\ reach QE CE K (patient CE) u z0 z /\
  few QE CE o z /\ ~ In (ODiscredit o) (z_qt _ _ z) /\ z_lost _ _ z = [] /\ at_rest QE CE o z /\ z_app _ _ z = [] /\
  In (TsClientModel.VNum a n TsClientModel.SOk) (z_ct _ _ z) /\ forall r, ~ In (TsClientModel.VRet a r) (z_ct _ _ z).
Proof.
  exists SE, KE, demo_codec, 5, 0%nat.
  destruct (demo_play true
    (shake ++ [ByClient (TsClientModel.LSend 2 (TsClientModel.WReq 0 0) TsClientModel.SOk)] ++ up1 ++ [ByServer (LEnd 0 HReject)])
    (fun z => few SE KE 0 z /\ ~ In (ODiscredit 0) (z_qt _ _ z) /\ z_lost _ _ z = [] /\ at_rest SE KE 0 z /\ z_app _ _ z = [] /\
       In (TsClientModel.VNum 2 3 TsClientModel.SOk) (z_ct _ _ z) /\ forall r, ~ In (TsClientModel.VRet 2 r) (z_ct _ _ z))) as (z0 & z & F & R & H).
  - vm_compute. split; [split; reflexivity|]. split; [intro Hq; never Hq|]. split; [reflexivity|]. split; [resting|].
    split; [reflexivity|]. split; [member|]. intros r Hq. never Hq.
  - exists z0, z, 2%nat, 3. split; [exact demo_compatible|]. split; [exact F|]. split; [exact R|exact H].
Qed.

Print Assumptions C94_patient_client_stays_partial.
Print Assumptions C94_early_call_refuted.
Print Assumptions C95_own_answer_partial.
Print Assumptions C95_ready_gives_own_uuid.
Print Assumptions C95_same_number_refuted.
Print Assumptions C96_calls_end_partial.
Print Assumptions C96_ready_partial.
Print Assumptions C96_assign_refuted.
Print Assumptions C96_failing_handler_refuted.
