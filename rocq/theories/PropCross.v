(** What becomes of a generated TypeScript client that talks to a generated Rust
    producer (C98, C99).  [fresh u y0]: the producer has added the connection [u];
    [reach A D u y0 y]: an execution of the two from there in which the client's
    application makes only the steps that [A] allows and the producer comes upon bytes
    of [u] only when [D] holds.  The client sends its self key as soon as it is
    connected; unlike a Rust client it does not wait for the confirmation of the
    producer.  [patient]: the client's application waits to be told that the client is
    ready before it sends requests and beacons; [confirmed]: the confirmation was sent. *)
From Coq Require Import List NArith Arith Bool Lia.
From Coq Require Import Strings.Byte.
From Verif Require Import Bytes WireModel FrameModel FrameProofs.
From Verif Require ProducerModel ProducerProofs ProducerMore PropProducer TsClientModel TsClientTrace SystemModel SystemProofs SystemServer SystemAnswers TsSystemModel PropSystem PropTsClient PropTsSystem.
From Verif Require Import CrossModel CrossProofs.
Import ListNotations.
Open Scope N_scope.

Section Statements.
Variable PE : ProducerModel.env.
Variable CE : TsClientModel.tenv.
Variable K : xcodec PE.
Hypothesis OK : compatible PE CE K.
Local Notation r_p := (r_p PE CE). Local Notation r_run := (r_run PE CE). Local Notation r_pt := (r_pt PE CE).
Local Notation r_ct := (r_ct PE CE). Local Notation r_ups := (r_ups PE CE).

(** ** C98 *)

(** If the producer comes upon bytes of the client before it has confirmed the
    connection, it disconnects the client, and no message of the client is handled
    from then on, whatever else happens. *)
Theorem C98_hasty_is_expelled : forall A D u y0 y n t s' r qs y',
  fresh PE CE u y0 -> reach PE CE K A D u y0 y -> r_run y = true -> ~ confirmed PE u (r_pt y) ->
  ProducerModel.step PE (ProducerModel.VReceived u (firstn n (r_ups y))) (r_p y) = (t, (s', r)) ->
  let y1 := mkXsys PE CE s' (SystemModel.goes r) (r_pt y ++ t) (r_c PE CE y) (r_cl PE CE y) (r_ct y)
              (skipn n (r_ups y)) (r_downs PE CE y ++ stream qs) in
  reach PE CE K A D u y1 y' ->
  (exists ok, In (ProducerModel.ODisc PE u ok) (r_pt y ++ t)) /\
  forall h m, In (ProducerModel.OHandle PE u h m) (r_pt y') -> In (ProducerModel.OHandle PE u h m) (r_pt y).
Proof.
  intros A D u y0 y n t s' r qs y' FR R RN NC St y1 R'. destruct (link_reach PE CE K u A D y0 y FR R) as (ups & downs & I).
  destruct (l_tab _ _ _ _ _ _ _ I RN) as (c & F & C & DC).
  assert (CF : ProducerModel.c_conf PE c = false) by (destruct (ProducerModel.c_conf PE c); [elim (NC (C eq_refl))|reflexivity]).
  destruct (hasty PE u _ _ _ _ _ _ F CF St) as (H & HD & HG). split.
  - destruct (ProducerModel.c_disc PE c) eqn:Q.
    + destruct (DC eq_refl) as (ok & J). exists ok. apply in_app_iff. auto.
    + destruct (HD eq_refl) as (ok & J). exists ok. apply in_app_iff. auto.
  - destruct (deaf_reach PE CE K u A D y1 y' HG R') as (_ & Z).
    assert (W : forall pt h m, In (ProducerModel.OHandle PE u h m) pt <-> In (h, m) (SystemModel.handled_by PE u pt)).
    { intros pt h m. unfold SystemModel.handled_by. rewrite in_flat_map. split.
      - intros J. eexists. split; [exact J|]. cbv beta iota. rewrite N.eqb_refl. left. reflexivity.
      - intros (o & J & Q). destruct o; try (elim Q; fail). revert Q. match goal with |- context [?v =? u] => destruct (N.eqb_spec v u) as [->|]; [|intros []] end. intros Q.
        destruct Q as [Q|[]]. injection Q as -> ->. exact J. }
    intros h m. rewrite !W, Z. unfold y1. cbn [CrossModel.r_pt]. rewrite SystemProofs.handled_by_app, H, app_nil_r. auto.
Qed.

(** If bytes of the client reach the producer only after its confirmation, a patient
    client is never disconnected for lack of confirmation, key or hash; the producer
    disconnects it only for the reasons of C41. *)
Theorem C98_never_expelled_partial : forall u y0 y,
  fresh PE CE u y0 -> reach PE CE K (patient CE) (confirmed PE u) u y0 y ->
  blen (concat (TsClientTrace.chunks CE (r_ct y))) < 2 ^ 64 ->
  (forall w, ~ In (ProducerModel.OError PE (ProducerModel.ENoKey u) w) (r_pt y)) /\
  ~ In (ProducerModel.OError PE ProducerModel.ENotConfirmed (Some u)) (r_pt y) /\
  forall t1 ok t2, r_pt y = t1 ++ ProducerModel.ODisc PE u ok :: t2 ->
    ((ProducerModel.e_cs PE = ProducerModel.SDisc \/ ProducerModel.e_cs PE = ProducerModel.SEmitDisc) /\
     ((exists n p, In (ProducerModel.OUnpacked PE (Some u) n p) t1) \/ exists n p, In (ProducerModel.OSend PE u n p false) t1))
    \/ ((ProducerModel.e_is PE = ProducerModel.IDisc \/ ProducerModel.e_is PE = ProducerModel.IEmitDisc) /\
        ~ In (ProducerModel.OSetAssigned PE u) t1).
Proof.
  intros u y0 y FR R L. destruct (inv_reach PE CE K OK u y0 y FR R L) as (ups & downs & I). pose proof (i_good _ _ _ _ _ _ _ I) as G.
  split; [|split].
  - intros w J. destruct (in_split _ _ J) as (t1 & t2 & Q). destruct (G _ _ _ Q) as ((W & _) & _). apply W. reflexivity.
  - intros J. destruct (in_split _ _ J) as (t1 & t2 & Q). destruct (G _ _ _ Q) as ((_ & W) & _). apply W; reflexivity.
  - intros t1 ok t2 Q. destruct (G _ _ _ Q) as (W & _). specialize (W eq_refl). destruct W as [(C & F)|(C & F)].
    + left. split; [|exact F]. unfold SystemServer.cut_on_error in C. destruct (ProducerModel.e_cs PE); auto; discriminate C.
    + right. split; [|exact F]. unfold SystemServer.cut_unassigned in C. destruct (ProducerModel.e_is PE); auto; discriminate C.
Qed.

(** Under the same conditions every request and beacon that is taken up is served. *)
Theorem C98_requests_served_partial : forall u y0 y,
  fresh PE CE u y0 -> reach PE CE K (patient CE) (confirmed PE u) u y0 y ->
  blen (concat (TsClientTrace.chunks CE (r_ct y))) < 2 ^ 64 ->
  forall t1 h m t2, r_pt y = t1 ++ ProducerModel.OHandle PE u h m :: t2 ->
  ProducerModel.e_self PE m = None -> ProducerModel.e_hash PE m = None ->
  (ProducerModel.e_is PE = ProducerModel.IIgnore \/ ProducerModel.e_is PE = ProducerModel.ILog \/ In (ProducerModel.OSetAssigned PE u) t1) ->
  (forall r, ProducerModel.e_request PE m = Some r -> exists ids res t3, t2 = ProducerModel.OCall PE u r m ids res :: t3) /\
  (forall b, ProducerModel.e_request PE m = None -> ProducerModel.e_beacon PE m = Some b ->
     exists ids ok t3, t2 = ProducerModel.OBeacon PE u b m ids ok :: t3).
Proof.
  intros u y0 y FR R L t1 h m t2 Q S Hm A. destruct (inv_reach PE CE K OK u y0 y FR R L) as (ups & downs & I).
  assert (Z : ProducerModel.e_request PE m <> None \/ ProducerModel.e_beacon PE m <> None -> exists o t3, t2 = o :: t3 /\ SystemServer.served PE u m o).
  { intros W. assert (D : SystemServer.due PE u (t1 ++ [ProducerModel.OHandle PE u h m]) m).
    { exists t1, h. split; [reflexivity|]. split; [exact S|]. split; [exact Hm|]. split; [exact W|]. unfold SystemServer.strict. intros T.
      destruct A as [A|[A|A]]; [rewrite A in T; discriminate T|rewrite A in T; discriminate T|exact A]. }
    destruct t2 as [|o t2].
    - elim (i_idle _ _ _ _ _ _ _ I m). rewrite Q. exact D.
    - exists o, t2. split; [reflexivity|]. apply (i_good _ _ _ _ _ _ _ I (t1 ++ [ProducerModel.OHandle PE u h m]) o t2); [|exact D].
      rewrite Q, <- app_assoc. reflexivity. }
  split.
  - intros r Rq. destruct Z as (o & t3 & -> & V); [left; congruence|]. unfold SystemServer.served in V. rewrite Rq in V.
    destruct V as (ids & res & ->). eauto.
  - intros b Rq B. destruct Z as (o & t3 & -> & V); [right; congruence|]. unfold SystemServer.served in V. rewrite Rq in V.
    destruct V as (b' & ids & ok & B' & ->). rewrite B in B'. injection B' as <-. eauto.
Qed.

(** Under the same conditions the producer takes up the messages of the client's calls,
    in the order of their numbers, none left out, none twice; if it runs, has not
    disconnected the client and no bytes are under way, all of them. *)
Theorem C98_all_handled_partial : forall u y0 y,
  fresh PE CE u y0 -> reach PE CE K (patient CE) (confirmed PE u) u y0 y ->
  blen (concat (TsClientTrace.chunks CE (r_ct y))) < 2 ^ 64 ->
  exists done rest, TsSystemModel.sent_up CE (r_ct y) = done ++ rest /\
  Forall2 (fun hm an => h_seq (fst hm) = snd an /\ exists w, In (TsClientModel.VCall (fst an) w) (r_ct y) /\
      ProducerModel.e_get PE (fst (r_up _ K (fst an) w)) (snd (r_up _ K (fst an) w)) = Ok (snd hm))
    (SystemModel.handled_by PE u (r_pt y)) done /\
  (r_run y = true -> r_ups y = [] -> (forall ok, ~ In (ProducerModel.ODisc PE u ok) (r_pt y)) -> rest = []).
Proof.
  intros u y0 y FR R L. destruct (inv_reach PE CE K OK u y0 y FR R L) as (ups & downs & I). pose proof (i_link _ _ _ _ _ _ _ I) as LK.
  pose proof (l_ups _ _ _ _ _ _ _ LK) as U.
  assert (NS : forall a n, In (a, n) (TsSystemModel.sent_up CE (r_ct y)) -> n mod 2 ^ 32 = n).
  { intros a n J. apply TsSystemProofs.in_sent_up in J. exact (proj1 (num_small CE _ _ _ _ _ (l_run _ _ _ _ _ _ _ LK) J)). }
  assert (D : forall ms qs, (forall a n, In (a, n) ms -> n mod 2 ^ 32 = n) -> Forall2 (of_call PE CE K (r_ct y)) ms qs ->
    Forall2 (fun hm an => h_seq (fst hm) = snd an /\ exists w, In (TsClientModel.VCall (fst an) w) (r_ct y) /\
      ProducerModel.e_get PE (fst (r_up _ K (fst an) w)) (snd (r_up _ K (fst an) w)) = Ok (snd hm))
     (flat_map (deliver (ProducerModel.e_get PE) (ProducerModel.e_sig PE)) qs) ms).
  { intros ms qs SM F. induction F as [|[a n] q ms qs (w & ts & CA & ->) F IH]; [constructor|].
    destruct (r_ups_ok _ _ _ OK a w) as (_ & _ & m & Gm & _). cbn [flat_map]. unfold deliver at 1. cbn [TsSystemModel.frame p_sig p_id p_body fst snd].
    rewrite (r_sig _ _ _ OK), N.eqb_refl, Gm. cbn [app]. constructor.
    - cbn [fst snd]. split; [exact (SM a n (or_introl eq_refl))|]. exists w. auto.
    - rewrite <- (r_sig _ _ _ OK). apply IH. intros a' n' J. apply (SM a' n'). right. exact J. }
  pose proof (D _ _ NS U) as F. destruct (i_hand _ _ _ _ _ _ _ I) as (more & H). rewrite H in F.
  apply Forall2_app_inv_l in F. destruct F as (done & rest & F1 & F2 & Q). exists done, rest. split; [exact Q|]. split; [exact F1|].
  intros Rn Y ND. destruct (i_serv _ _ _ _ _ _ _ I Rn) as (B & j & _ & Lj & Hj & S). destruct (S ND) as (S1 & S2). rewrite Y, app_nil_r in S1.
  assert (J : skipn j ups = []).
  { destruct (skipn j ups) as [|q l] eqn:W; [reflexivity|]. exfalso. cbn in S2. rewrite S1 in S2. cbn in S2.
    change (blen (wire q ++ stream l) < blen (wire q)) in S2. rewrite blen_app in S2. lia. }
  assert (E : more = []).
  { rewrite Hj in H. rewrite <- (firstn_skipn j ups), J, flat_map_app, app_nil_r in H at 1. cbn [flat_map] in H.
    rewrite <- (app_nil_r (flat_map _ (firstn j ups))) in H at 1. apply app_inv_head in H. congruence. }
  rewrite E in F2. inversion F2. reflexivity.
Qed.

(** ** C99 *)

(** The uuid that [ready] gives is what the producer has sent as the client's own, and
    the producer has found its hashes right.  (As long as less than 2^64 bytes have
    come.) *)
Theorem C99_ready_means_accepted_partial : forall A D u y0 y v,
  fresh PE CE u y0 -> reach PE CE K A D u y0 y -> blen (concat (TsClientTrace.chunks CE (r_ct y))) < 2 ^ 64 ->
  In (TsClientModel.VReady v) (r_ct y) ->
  (exists n m, In (ProducerModel.OSend PE u n (ProducerModel.PSelf u) true) (r_pt y) /\
     TsClientModel.t_get CE (fst (r_down _ K (ProducerModel.PSelf u))) (snd (r_down _ K (ProducerModel.PSelf u))) = Ok m /\
     TsClientModel.t_self CE m = Some v) /\
  exists n, In (ProducerModel.OSend PE u n (ProducerModel.PHash true) true) (r_pt y).
Proof.
  intros A D u y0 y v FR R L J. destruct (link_reach PE CE K u A D y0 y FR R) as (ups & downs & I).
  pose proof (reasoned_reach PE CE K u A D y0 y FR R) as RS. split.
  - destruct (in_split _ _ J) as (p & q & E).
    destruct (PropTsClient.C83_ready_after_handshake CE _ _ _ _ _ _ (l_run _ _ _ _ _ _ _ I) E)
      as (a & na & ma & b & nb & mb & p1 & p2 & p3 & p4 & p5 & EP & TS & _).
    assert (VM : exists y1 y2, r_ct y = y1 ++ TsClientModel.VMatch a na ma :: y2).
    { apply in_split. rewrite E, EP, !in_app_iff. cbn [In]. tauto. }
    destruct VM as (y1 & y2 & VM). destruct (TsClientTrace.match_after_read CE _ _ _ _ _ _ _ _ (l_run _ _ _ _ _ _ _ I) VM) as (y3 & h & -> & _).
    assert (HR : In (TsClientModel.VRead h ma) (r_ct y)) by (rewrite VM, <- app_assoc; apply in_app_iff; right; left; reflexivity).
    destruct (read_sent _ _ _ OK _ _ _ _ _ _ I L HR) as (n & p0 & W & _ & G).
    destruct (r_downs_ok _ _ _ OK p0) as (_ & _ & m' & G' & DW). rewrite G in G'. injection G' as <-.
    destruct p0 as [w|bb| | |x|x]; try (destruct DW as (DW & _); congruence).
    destruct (in_split _ _ W) as (t1 & t2 & EW). destruct (RS _ _ _ _ _ _ EW) as (-> & _). exists n, ma. auto.
  - destruct (ready_read CE _ _ _ (l_run _ _ _ _ _ _ _ I) v J) as (h & m & RH & TH). exact (read_hash _ _ _ OK _ _ _ _ _ _ I L RH TH).
Qed.

(** Unless it fails before its message is sent, a call returns what decodes from the
    message that the producer sent as the answer to its own message; for a request this
    is what the handler called with this message has made.  (Partial: bytes of the client
    reach the producer only after its confirmation, the application of the client is
    patient, the server's application does not use the number of the call for a message
    of its own, and less than 2^64 bytes have come.) *)
Theorem C99_own_answer_partial : forall u y0 y a r,
  fresh PE CE u y0 -> reach PE CE K (patient CE) (confirmed PE u) u y0 y -> blen (concat (TsClientTrace.chunks CE (r_ct y))) < 2 ^ 64 ->
  In (TsClientModel.VRet a r) (r_ct y) ->
  (forall e, r = TsClientModel.RetErr e ->
     e <> TsClientModel.EBusy /\ e <> TsClientModel.EGone /\ e <> TsClientModel.EPack /\ e <> TsClientModel.ESend) ->
  exists w n, In (TsClientModel.VCall a w) (r_ct y) /\ In (TsClientModel.VNum a n TsClientModel.SOk) (r_ct y) /\
   ((forall k x, In (ProducerModel.OSend PE u k (ProducerModel.PBroadcast x) true) (r_pt y) -> k mod 2 ^ 32 <> n) ->
    exists h m' p m t0 l t2,
      r_pt y = t0 ++ ProducerModel.OHandle PE u h m' :: l ++ ProducerModel.OSend PE u n p true :: t2 /\ h_seq h = n /\
      ProducerModel.e_get PE (fst (r_up _ K a w)) (snd (r_up _ K a w)) = Ok m' /\
      TsClientModel.t_get CE (fst (r_down _ K p)) (snd (r_down _ K p)) = Ok m /\
      match w with
      | TsClientModel.WAssign _ => ProducerModel.e_request PE m' = None -> ProducerModel.e_beacon PE m' = None ->
          l = [] /\ p = ProducerModel.PSelf u /\ exists v, TsClientModel.t_self CE m = Some v /\ r = TsClientModel.RetUuid v
      | TsClientModel.WHash _ => ProducerModel.e_request PE m' = None -> ProducerModel.e_beacon PE m' = None ->
          l = [] /\ p = ProducerModel.PHash true /\ r = TsClientModel.RetHash
      | TsClientModel.WReq k _ => exists q ids res, l = [ProducerModel.OCall PE u q m' ids res] /\ ProducerModel.e_request PE m' = Some q /\
          p = ProducerModel.PAnswer (ProducerMore.answer_of PE res) /\
          match TsClientModel.t_answer CE k m with
          | Some i => r = TsClientModel.RetAnswer i m
          | None => r = TsClientModel.RetErr TsClientModel.EUnexpected
          end
      | TsClientModel.WBeacon _ _ => exists b ids, l = [ProducerModel.OBeacon PE u b m' ids true] /\ ProducerModel.e_beacon PE m' = Some b /\
          p = ProducerModel.PBeacon /\ r = TsClientModel.RetBeacon
      end).
Proof.
  intros u y0 y a r FR R L IN NE. destruct (inv_reach PE CE K OK u y0 y FR R L) as (ups & downs & I). pose proof (i_link _ _ _ _ _ _ _ I) as LK.
  pose proof (reasoned_reach PE CE K u _ _ y0 y FR R) as RS. pose proof (l_run _ _ _ _ _ _ _ LK) as TR.
  pose proof IN as IN'. apply in_split in IN' as (p1 & p2 & E).
  destruct (PropTsClient.C79_own_answer CE _ _ _ _ _ _ _ TR E NE) as (w & n & m & h0 & x1 & x2 & x3 & x4 & EP & HN & FT & _ & ONE).
  assert (HC : In (TsClientModel.VCall a w) (r_ct y)) by (rewrite E, EP; rewrite ?in_app_iff; cbn [In]; rewrite ?in_app_iff; cbn [In]; tauto).
  assert (HM : In (TsClientModel.VNum a n TsClientModel.SOk) (r_ct y)).
  { rewrite E, EP. apply in_app_iff. left. apply in_app_iff. right. right. apply in_app_iff. right. left. reflexivity. }
  assert (HR : In (TsClientModel.VRead h0 m) (r_ct y)).
  { rewrite E, EP. apply in_app_iff. left. apply in_app_iff. right. right. apply in_app_iff. right. right. apply in_app_iff. right. left. reflexivity. }
  exists w, n. split; [exact HC|]. split; [exact HM|]. intro NA.
  destruct (num_small CE _ _ _ _ _ TR HM) as (_ & NZ). subst n.
  destruct (own PE CE K OK u _ _ _ _ _ I RS L HR NZ NA) as (a' & w' & h & m' & p & t0 & l & t2 & H1 & H2 & H3 & H4 & H5 & H6 & H7).
  assert (a' = a) as -> by exact (num_inj CE _ _ _ _ _ _ _ _ TR H2 HM).
  assert (w' = w) as ->.
  { destruct (call_act CE _ _ _ _ _ TR HC) as (g & C). destruct (call_act CE _ _ _ _ _ TR H1) as (g' & C'). congruence. }
  exists h, m', p, m, t0, l, t2. do 4 (split; [assumption|]).
  destruct (r_ups_ok _ _ _ OK a w) as (_ & _ & mu & GU & KU). rewrite H5 in GU. injection GU as <-.
  destruct (r_downs_ok _ _ _ OK p) as (_ & _ & md & GD & KD). rewrite H6 in GD. injection GD as <-.
  destruct w as [auto|v|k ob|b ob].
  - intros NR NB. destruct KU as (KU1 & KU2). destruct p as [v|b| | |x|x]; try (elim H7; fail).
    + destruct H7 as (-> & -> & _). split; [reflexivity|]. split; [reflexivity|]. destruct KD as (_ & t & TS & TB).
      destruct FT as [(x & TS' & FT)|(TS' & _)]; [|congruence]. rewrite TS in TS'. injection TS' as <-. exists t. split; [exact TS|].
      destruct FT as [FT|FT]; [exact FT|]. exfalso. subst r.
      destruct (PropTsSystem.uuid_error CE _ _ _ _ TR IN) as (n' & mm & x & VM & TS' & TB').
      destruct (ONE _ _ VM) as (_ & ->). congruence.
    + destruct H7 as (_ & pw & H7 & _). congruence.
    + destruct H7 as (b & ids & _ & _ & H7). congruence.
    + destruct H7 as (q & ids & res & _ & H7 & _). congruence.
  - intros NR NB. destruct KU as (KU1 & KU2). destruct p as [v'|b| | |x|x]; try (elim H7; fail).
    + destruct H7 as (_ & _ & H7). congruence.
    + destruct H7 as (-> & pw & HP & ->). split; [reflexivity|]. rewrite KU2 in HP. injection HP as <-.
      assert (HV : ProducerModel.hash_valid PE (ProducerModel.e_phash PE, ProducerModel.e_whash PE) = true) by apply SystemServer.valid_own.
      rewrite HV in *. split; [reflexivity|]. destruct KD as (_ & e & KD & KE). rewrite (proj2 KE eq_refl) in KD.
      destruct FT as [(_ & FT)|[(t & FT & _)|(FT & _)]]; [exact FT|congruence|congruence].
    + destruct H7 as (b & ids & _ & _ & H7). congruence.
    + destruct H7 as (q & ids & res & _ & H7 & _). congruence.
  - destruct KU as (KU1 & KU2 & KU3). destruct p as [v'|b| | |x|x]; try (elim H7; fail).
    + destruct H7 as (_ & _ & H7). congruence.
    + destruct H7 as (_ & pw & HP & _). congruence.
    + destruct H7 as (b & ids & _ & H7 & _). congruence.
    + destruct H7 as (q & ids & res & -> & H7 & ->). exists q, ids, res. do 3 (split; [solve [auto]|]).
      destruct FT as [(i & FT & ->)|(FT & ->)]; rewrite FT; reflexivity.
  - destruct KU as (KU1 & KU2 & KU3 & KU4). destruct p as [v'|b'| | |x|x]; try (elim H7; fail).
    + destruct H7 as (_ & _ & H7). congruence.
    + destruct H7 as (_ & pw & HP & _). congruence.
    + destruct H7 as (b' & ids & -> & _ & H7). exists b', ids. do 3 (split; [solve [auto]|]). destruct KD as (_ & _ & KD).
      destruct FT as [(_ & FT)|[(x & FT & _)|(FT & _)]]; [exact FT|congruence|congruence].
    + destruct H7 as (q & ids & res & _ & H7 & _). congruence.
Qed.
End Statements.
Print Assumptions C98_hasty_is_expelled.
Print Assumptions C98_never_expelled_partial.
Print Assumptions C98_requests_served_partial.
Print Assumptions C98_all_handled_partial.
Print Assumptions C99_ready_means_accepted_partial.
Print Assumptions C99_own_answer_partial.

(** ** Concrete cases *)

Inductive step := ByServer (e : ProducerModel.event) | Receive | ByClient (l : TsClientModel.label) | Deliver.

Section Play.
Variable PE : ProducerModel.env.
Variable CE : TsClientModel.tenv.
Variable K : xcodec PE.
(** whether the producer confirms first *)
Variable calm : bool.
Variable u : N.
Local Notation xsys := (xsys PE CE).
Local Notation tev := (TsClientModel.tev (TsClientModel.t_msg CE)).

Definition orderly (pt : list (ProducerModel.out PE)) : Prop := if calm then confirmed PE u pt else True.
Definition confirmedb (pt : list (ProducerModel.out PE)) : bool :=
  existsb (fun o => match o with ProducerModel.OSend _ v _ ProducerModel.PConfirm _ => v =? u | _ => false end) pt.
Definition may (t : list tev) (l : TsClientModel.label) : bool :=
  match l with
  | TsClientModel.LData _ _ | TsClientModel.LDisconnected => false
  | TsClientModel.LConnected _ _ => negb (existsb (PropTsSystem.is_conn CE) t)
  | TsClientModel.LSend _ _ _ => existsb (PropTsSystem.is_ready CE) t
  | _ => true
  end.
Fixpoint pack_up (t : list tev) (l : list (nat * N)) : option (list packet) :=
  match l with
  | [] => Some []
  | (a, n) :: l =>
    match PropTsSystem.call_of CE a t, pack_up t l with
    | Some w, Some qs => Some (TsSystemModel.frame (TsClientModel.t_sig CE) (r_up _ K a w) n 0 :: qs)
    | _, _ => None
    end
  end.
Definition pack_down (ms : list (N * ProducerModel.payload (ProducerModel.e_user PE))) : list packet :=
  map (fun np => TsSystemModel.frame (ProducerModel.e_sig PE) (r_down _ K (snd np)) (fst np) 0) ms.

(** Everything that is under way is taken at once. *)
Definition go (y : xsys) (c : step) : option xsys :=
  let '(mkXsys _ _ p run pt cs cl ct ups downs) := y in
  match c with
  | ByServer e =>
    if run && PropSystem.apartb u e then
      let '(t, (s', r)) := ProducerModel.step PE e p in
      Some (mkXsys PE CE s' (SystemModel.goes r) (pt ++ t) cs cl ct ups (downs ++ stream (pack_down (SystemModel.sent_down PE u t))))
    else None
  | Receive =>
    if run && (negb calm || confirmedb pt) && Nat.ltb 0 (length ups) then
      let '(t, (s', r)) := ProducerModel.step PE (ProducerModel.VReceived u (firstn (length ups) ups)) p in
      Some (mkXsys PE CE s' (SystemModel.goes r) (pt ++ t) cs cl ct (skipn (length ups) ups) (downs ++ stream (pack_down (SystemModel.sent_down PE u t))))
    else None
  | ByClient l =>
    if may ct l then
      match TsClientModel.fire CE cs l with
      | Some (s', es) =>
        match pack_up es (TsSystemModel.sent_up CE es) with
        | Some qs => Some (mkXsys PE CE p run pt s' (cl ++ [l]) (ct ++ es) (ups ++ stream qs) downs)
        | None => None
        end
      | None => None
      end
    else None
  | Deliver =>
    let l := TsClientModel.LData (firstn (length downs) downs) 9 in
    match TsClientModel.fire CE cs l with
    | Some (s', es) =>
      match pack_up es (TsSystemModel.sent_up CE es) with
      | Some qs => Some (mkXsys PE CE p run pt s' (cl ++ [l]) (ct ++ es) (ups ++ stream qs) (skipn (length downs) downs))
      | None => None
      end
    | None => None
    end
  end.
Fixpoint play (y : xsys) (cs : list step) : option xsys :=
  match cs with [] => Some y | c :: cs => match go y c with Some y' => play y' cs | None => None end end.

Lemma packed ms : down_packets PE K ms (pack_down ms).
Proof. unfold down_packets, pack_down. induction ms as [|np ms IH]; cbn [map]; constructor; eauto. Qed.
Lemma packed_up t qs : pack_up t (TsSystemModel.sent_up CE t) = Some qs -> up_packets PE CE K t qs.
Proof.
  unfold up_packets. generalize (TsSystemModel.sent_up CE t) as l. intro l. revert qs.
  induction l as [|[a n] l IH]; intros qs H; cbn [pack_up] in H; [injection H as <-; constructor|].
  destruct (PropTsSystem.call_of CE a t) as [w|] eqn:C; [|discriminate H]. destruct (pack_up t l) as [qs'|]; [|discriminate H].
  injection H as <-. constructor; [|apply IH; reflexivity]. exists w, 0. split; [exact (PropTsSystem.call_in CE _ _ _ C)|reflexivity].
Qed.

Lemma go_move y c y' : go y c = Some y' -> move PE CE K (patient CE) orderly u y y'.
Proof.
  destruct y as [p run pt cs cl ct ups downs]. destruct c as [e| |l|]; unfold go; intro H.
  - destruct run eqn:RN; [|discriminate H]. destruct (PropSystem.apartb u e) eqn:AP; [|discriminate H]. cbn [andb] in H.
    destruct (ProducerModel.step PE e p) as (t & s' & r) eqn:S. injection H as <-.
    refine (X_server PE CE K _ _ u (mkXsys PE CE p true pt cs cl ct ups downs) e t s' r _ eq_refl _ S (packed _)).
    destruct e; cbn in AP |- *; auto; apply negb_true_iff, N.eqb_neq in AP; exact AP.
  - destruct run eqn:RN; [|discriminate H]. destruct (negb calm || confirmedb pt) eqn:C; [|discriminate H].
    destruct (Nat.ltb 0 (length ups)) eqn:L; [|discriminate H]. cbn [andb] in H.
    destruct (ProducerModel.step PE _ p) as (t & s' & r) eqn:S. injection H as <-.
    refine (X_receive PE CE K _ _ u (mkXsys PE CE p true pt cs cl ct ups downs) (length ups) t s' r _ eq_refl _ _ S (packed _)); cbn [r_pt r_ups].
    + unfold orderly. destruct calm; [|exact I]. cbn [negb orb] in C. apply existsb_exists in C as (o & J & W).
      destruct o as [| | | | |v n q ok| | | | | | | |]; try discriminate W. destruct q; try discriminate W. apply N.eqb_eq in W. subst v. exists n, ok. exact J.
    + apply Nat.ltb_lt in L. lia.
  - destruct (may ct l) eqn:MY; [|discriminate H]. destruct (TsClientModel.fire CE cs l) as [[s' es]|] eqn:F; [|discriminate H].
    destruct (pack_up es (TsSystemModel.sent_up CE es)) as [qs|] eqn:P; [|discriminate H]. injection H as <-.
    refine (X_client PE CE K _ _ u (mkXsys PE CE p run pt cs cl ct ups downs) l s' es qs _ _ F (packed_up _ _ P)); cbn [r_ct].
    + destruct l; cbn [may TsSystemModel.own_step] in *; auto; try discriminate MY. intro W.
      assert (E : existsb (PropTsSystem.is_conn CE) ct = true) by (apply existsb_exists; eexists; split; [exact W|reflexivity]). rewrite E in MY. discriminate MY.
    + destruct l; cbn [may patient] in *; auto. apply existsb_exists in MY as (e & W & Y). destruct e; try discriminate Y. eexists. exact W.
  - destruct (TsClientModel.fire CE cs _) as [[s' es]|] eqn:F; [|discriminate H].
    destruct (pack_up es (TsSystemModel.sent_up CE es)) as [qs|] eqn:P; [|discriminate H]. injection H as <-.
    refine (X_deliver PE CE K _ _ u (mkXsys PE CE p run pt cs cl ct ups downs) (length downs) 9 s' es qs _ F (packed_up _ _ P)).
    cbn [r_downs]. lia.
Qed.
Lemma play_reach y0 cs : forall y y', reach PE CE K (patient CE) orderly u y0 y -> play y cs = Some y' -> reach PE CE K (patient CE) orderly u y0 y'.
Proof.
  induction cs as [|c cs IH]; intros y y' R H; cbn [play] in H; [injection H as <-; exact R|].
  destruct (go y c) as [y1|] eqn:G; [|discriminate H]. apply (IH y1); [|exact H]. exact (reach_move _ _ _ _ _ _ _ _ _ R (go_move _ _ _ G)).
Qed.
End Play.

(** The producer of PropProducer.v and a client that knows message 1 as the
    confirmation, 2 as the answer to the self key, 3 to the hashes, 4 to a beacon, 10 and
    11 as answers, 20 as a broadcast. *)
Definition SE : ProducerModel.env := PropProducer.demo ProducerModel.IIgnore ProducerModel.SEmitDisc [] true.
Definition KE : TsClientModel.tenv :=
  TsClientModel.mkTenv (N * bytes) (fun id b => if existsb (N.eqb id) [1; 2; 3; 4; 10; 11; 20] then Ok (id, b) else Panic) 5
    (fun m => if fst m =? 2 then Some (snd m) else None)
    (fun m => if fst m =? 3 then Some (match snd m with [] => None | t => Some t end) else None)
    (fun m => if fst m =? 4 then Some (match snd m with [] => None | t => Some t end) else None)
    (fun r m => if fst m =? 10 then Some 0%nat else if fst m =? 11 then Some 1%nat else None)
    (fun m => if fst m =? 20 then Some 0%nat else None)
    (fun t => match t with [] => true | _ => false end).
Definition demo_codec : xcodec SE := mkXcodec SE
  (fun _ w => match w with
    | TsClientModel.WAssign _ => (1, [x61])
    | TsClientModel.WHash _ => (2, [x0a; x0b])
    | TsClientModel.WReq _ _ => (10, [])
    | TsClientModel.WBeacon _ _ => (20, [])
    end)
  (fun p : ProducerModel.payload N => match p with
    | ProducerModel.PConfirm => (1, [])
    | ProducerModel.PSelf v => (2, le 16 v)
    | ProducerModel.PHash b => (3, if b then [] else [x01])
    | ProducerModel.PBeacon => (4, [])
    | ProducerModel.PAnswer x => (10, le 8 x)
    | ProducerModel.PBroadcast x => (20, le 8 x)
    end).
Lemma demo_compatible : compatible SE KE demo_codec.
Proof.
  constructor; [reflexivity|reflexivity| |].
  - intros a [b|v|r o|b o]; (split; [reflexivity|]); (split; [reflexivity|]); eexists; (split; [reflexivity|]); cbn; repeat split; discriminate.
  - intros [v|b| | |x|x]; cbn [r_down demo_codec fst snd].
    + do 2 (split; [reflexivity|]). eexists. split; [reflexivity|]. split; [reflexivity|]. eexists. split; reflexivity.
    + destruct b; do 2 (split; [reflexivity|]); eexists; (split; [reflexivity|]); (split; [reflexivity|]); eexists; (split; [reflexivity|]); split; intro W; solve [reflexivity|discriminate W].
    + do 2 (split; [reflexivity|]). eexists. split; [reflexivity|]. split; reflexivity.
    + do 2 (split; [reflexivity|]). eexists. split; [reflexivity|]. repeat split.
    + do 2 (split; [reflexivity|]). eexists. split; [reflexivity|]. split; reflexivity.
    + do 2 (split; [reflexivity|]). eexists. split; [reflexivity|]. split; reflexivity.
Qed.

Definition start : xsys SE KE :=
  mkXsys SE KE (PropProducer.final SE tt [ProducerModel.VConnected 4]) true [] TsClientModel.tinit [] [] [] [].
Lemma start_fresh : fresh SE KE 4 start.
Proof. repeat split. Qed.
Lemma demo_play calm cs (P : xsys SE KE -> Prop) :
  match play SE KE demo_codec calm 4 start cs with Some y => P y | None => False end ->
  exists y, reach SE KE demo_codec (patient KE) (orderly SE calm 4) 4 start y /\ P y.
Proof.
  destruct (play SE KE demo_codec calm 4 start cs) as [y|] eqn:R; [|intros []]. intro H.
  exists y. split; [|exact H]. exact (play_reach _ _ _ _ _ _ _ _ _ (reach_start _ _ _ _ _ _ _) R).
Qed.

Definition next : list step := [ByClient TsClientModel.LNext; ByClient TsClientModel.LNext].
Definition greet : list step :=
  [ByClient (TsClientModel.LConnected 0 TsClientModel.SOk); ByServer ProducerModel.VConfirm; Deliver] ++ next ++
  [Receive; Deliver] ++ next ++ [ByClient (TsClientModel.LRun 0); ByClient (TsClientModel.LHash 0 1 TsClientModel.SOk); Receive; Deliver] ++ next ++
  [ByClient (TsClientModel.LRun 1)].
(** A request, which is answered with a broadcast, and a beacon *)
Definition asks : list step :=
  greet ++ [ByClient (TsClientModel.LSend 2 (TsClientModel.WReq 0 0) TsClientModel.SOk); Receive; Deliver] ++ next ++ [ByClient TsClientModel.LNext] ++
  [ByClient (TsClientModel.LRun 2); ByClient (TsClientModel.LSend 3 (TsClientModel.WBeacon 0 1) TsClientModel.SOk); Receive; Deliver] ++ next ++
  [ByClient (TsClientModel.LRun 3)].

Ltac member := repeat (first [left; reflexivity|right]).

Example C98_example : compatible SE KE demo_codec /\ fresh SE KE 4 start /\ exists y,
  reach SE KE demo_codec (patient KE) (confirmed SE 4) 4 start y /\
  blen (concat (TsClientTrace.chunks KE (r_ct _ _ y))) < 2 ^ 64 /\ r_run _ _ y = true /\ r_ups _ _ y = [] /\
  (forall ok, ~ In (ProducerModel.ODisc SE 4 ok) (r_pt _ _ y)) /\
  map (fun hm => h_seq (fst hm)) (SystemModel.handled_by SE 4 (r_pt _ _ y)) = [1; 2; 3; 4].
Proof.
  split; [exact demo_compatible|]. split; [exact start_fresh|]. apply (demo_play true asks). vm_compute.
  do 3 (split; [reflexivity|]). split; [|reflexivity]. intros ok J. repeat (destruct J as [J|J]; [discriminate J|]). elim J.
Qed.
Example C98_requests_served_example : exists y,
  reach SE KE demo_codec (patient KE) (confirmed SE 4) 4 start y /\
  blen (concat (TsClientTrace.chunks KE (r_ct _ _ y))) < 2 ^ 64 /\
  exists t1 h m t2, r_pt _ _ y = t1 ++ ProducerModel.OHandle SE 4 h m :: t2 /\
    ProducerModel.e_self SE m = None /\ ProducerModel.e_hash SE m = None /\ ProducerModel.e_is SE = ProducerModel.IIgnore /\ ProducerModel.e_request SE m = Some 0%nat.
Proof.
  apply (demo_play true asks). vm_compute. split; [reflexivity|]. eexists [_; _; _; _; _], _, _, _. repeat split.
Qed.
Example C99_ready_example : exists y,
  reach SE KE demo_codec (patient KE) (confirmed SE 4) 4 start y /\
  blen (concat (TsClientTrace.chunks KE (r_ct _ _ y))) < 2 ^ 64 /\ In (TsClientModel.VReady (le 16 4)) (r_ct _ _ y).
Proof. apply (demo_play true greet). vm_compute. split; [reflexivity|]. member. Qed.
Example C99_own_answer_example : exists y,
  reach SE KE demo_codec (patient KE) (confirmed SE 4) 4 start y /\
  blen (concat (TsClientTrace.chunks KE (r_ct _ _ y))) < 2 ^ 64 /\
  In (TsClientModel.VRet 2 (TsClientModel.RetAnswer 0 (10, le 8 7))) (r_ct _ _ y) /\ In (TsClientModel.VRet 3 TsClientModel.RetBeacon) (r_ct _ _ y) /\
  forall k x, In (ProducerModel.OSend SE 4 k (ProducerModel.PBroadcast x) true) (r_pt _ _ y) -> k mod 2 ^ 32 <> 3 /\ k mod 2 ^ 32 <> 4.
Proof.
  apply (demo_play true asks). vm_compute. split; [reflexivity|]. split; [member|]. split; [member|].
  intros k x J. repeat (destruct J as [J|J]; [solve [discriminate J|injection J as <- _; split; discriminate]|]). elim J.
Qed.

(** The race: the client sends its self key as soon as it is connected, the producer
    comes upon it before it has sent its confirmation, and disconnects the client.  The
    client's application has done nothing, and nothing has failed. *)
Theorem C98_race_refuted : exists PE CE K u y0 y,
  compatible PE CE K /\ fresh PE CE u y0 /\ reach PE CE K (patient CE) (fun _ => True) u y0 y /\
  r_cl _ _ y = [TsClientModel.LConnected 0 TsClientModel.SOk] /\
  In (ProducerModel.OError PE ProducerModel.ENotConfirmed (Some u)) (r_pt _ _ y) /\
  In (ProducerModel.ODisc PE u true) (r_pt _ _ y) /\
  (forall v n p, ~ In (ProducerModel.OSend PE v n p false) (r_pt _ _ y)) /\ (forall v n p, ~ In (ProducerModel.OUnpacked PE v n p) (r_pt _ _ y)).
Proof.
  exists SE, KE, demo_codec, 4, start.
  destruct (demo_play false [ByClient (TsClientModel.LConnected 0 TsClientModel.SOk); Receive; ByServer ProducerModel.VConfirm] (fun y =>
    r_cl _ _ y = [TsClientModel.LConnected 0 TsClientModel.SOk] /\
    In (ProducerModel.OError SE ProducerModel.ENotConfirmed (Some 4)) (r_pt _ _ y) /\ In (ProducerModel.ODisc SE 4 true) (r_pt _ _ y) /\
    (forall v n p, ~ In (ProducerModel.OSend SE v n p false) (r_pt _ _ y)) /\ (forall v n p, ~ In (ProducerModel.OUnpacked SE v n p) (r_pt _ _ y)))) as (y & R & H).
  { vm_compute. split; [reflexivity|]. split; [member|]. split; [member|].
    split; intros v n p J; repeat (destruct J as [J|J]; [discriminate J|]); elim J. }
  exists y. split; [exact demo_compatible|]. split; [exact start_fresh|]. split; [exact R|exact H].
Qed.
Print Assumptions C98_race_refuted.

(** The hypotheses of [C98_hasty_is_expelled]: the self key waits, nothing is confirmed. *)
Example C98_hasty_example : exists y,
  reach SE KE demo_codec (patient KE) (fun _ => True) 4 start y /\ r_run _ _ y = true /\ ~ confirmed SE 4 (r_pt _ _ y) /\ length (r_ups _ _ y) = 27%nat.
Proof.
  apply (demo_play false [ByClient (TsClientModel.LConnected 0 TsClientModel.SOk)]). vm_compute. split; [reflexivity|]. split; [|reflexivity].
  intros (n & ok & J). elim J.
Qed.
