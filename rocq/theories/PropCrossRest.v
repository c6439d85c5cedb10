(** What is left of a generated Rust producer and a generated TypeScript client when
    nothing happens any more (C103).  The setting is that of PropCross.v. *)
From Coq Require Import List NArith Arith Bool Lia.
From Coq Require Import Strings.Byte.
From Verif Require Import Bytes WireModel FrameModel FrameProofs.
From Verif Require ProducerModel ProducerProofs ProducerMore PropProducer TsClientModel TsClientProofs TsClientTrace SystemModel SystemProofs SystemServer SystemAnswers TsSystemModel TsSystemProofs TsSystemOrder PropSystem PropTsClient PropTsSystem.
From Verif Require Import CrossModel CrossProofs CrossRest PropCross.
Import ListNotations.
Open Scope N_scope.

Section Statements.
Variable PE : ProducerModel.env.
Variable CE : TsClientModel.tenv.
Variable K : xcodec PE.
Hypothesis OK : compatible PE CE K.
Variable u : N.
Local Notation xsys := (xsys PE CE).
Local Notation r_p := (r_p PE CE). Local Notation r_run := (r_run PE CE). Local Notation r_pt := (r_pt PE CE).
Local Notation r_c := (r_c PE CE). Local Notation r_cl := (r_cl PE CE). Local Notation r_ct := (r_ct PE CE).
Local Notation r_ups := (r_ups PE CE). Local Notation r_downs := (r_downs PE CE).
Local Notation OSend := (ProducerModel.OSend PE). Local Notation OHandle := (ProducerModel.OHandle PE).
Local Notation VNum := TsClientModel.VNum. Local Notation VCall := TsClientModel.VCall. Local Notation VRead := TsClientModel.VRead.
Local Notation SOk := TsClientModel.SOk.

(** The producer runs, no bytes are under way and the client has done what it has to
    do. *)
Definition at_rest (y : xsys) : Prop :=
  r_run y = true /\ r_ups y = [] /\ r_downs y = [] /\ PropTsClient.at_rest CE (r_c y).

(** The producer has not disconnected [u], packs and sends what it makes for [u],
    and the application takes every beacon. *)
Definition serves (pt : list (ProducerModel.out PE)) : Prop :=
  (forall ok, ~ In (ProducerModel.ODisc PE u ok) pt) /\
  (forall n p, ~ In (ProducerModel.OUnpacked PE (Some u) n p) pt) /\
  (forall n p, ~ In (OSend u n p false) pt) /\
  (forall b m ids, ~ In (ProducerModel.OBeacon PE u b m ids false) pt).

(** The application of the producer has assigned [u], or it need not. *)
Definition admitted (pt : list (ProducerModel.out PE)) : Prop :=
  ProducerModel.e_is PE = ProducerModel.IIgnore \/ ProducerModel.e_is PE = ProducerModel.ILog \/
  forall t1 h m t2, pt = t1 ++ OHandle u h m :: t2 ->
    ProducerModel.e_self PE m = None -> ProducerModel.e_hash PE m = None -> In (ProducerModel.OSetAssigned PE u) t1.

(** The application of the producer has sent [u] no message of its own, and no
    broadcast, with the number [n]. *)
Definition unused (n : N) (pt : list (ProducerModel.out PE)) : Prop :=
  forall k x, In (OSend u k (ProducerModel.PBroadcast x) true) pt -> k mod 2 ^ 32 <> n.

(** ** The producer has answered *)
Lemma handled_at t : forall H1 h m H2, SystemModel.handled_by PE u t = H1 ++ (h, m) :: H2 ->
  exists pre post, t = pre ++ OHandle u h m :: post /\ SystemModel.handled_by PE u pre = H1.
Proof.
  induction t as [|o t IH]; intros H1 h m H2 Q; [destruct H1; discriminate Q|].
  change (o :: t) with ([o] ++ t) in Q. rewrite SystemProofs.handled_by_app in Q.
  assert (OLD : SystemModel.handled_by PE u [o] = [] -> exists pre post, o :: t = pre ++ OHandle u h m :: post /\ SystemModel.handled_by PE u pre = H1).
  { intros Z. rewrite Z in Q. destruct (IH _ _ _ _ Q) as (pre & post & -> & W). exists (o :: pre), post. split; [reflexivity|].
    change (o :: pre) with ([o] ++ pre). rewrite SystemProofs.handled_by_app, Z. exact W. }
  destruct o as [| |v h' m'| | | | | | | | | | |]; try (apply OLD; reflexivity).
  destruct (N.eqb_spec v u) as [->|NE].
  2:{ apply OLD. unfold SystemModel.handled_by. cbn [flat_map]. destruct (N.eqb_spec v u); [congruence|reflexivity]. }
  assert (Z : SystemModel.handled_by PE u [OHandle u h' m'] = [(h', m')]) by (unfold SystemModel.handled_by; cbn [flat_map]; rewrite N.eqb_refl; reflexivity).
  rewrite Z in Q. destruct H1 as [|x H1]; cbn [app] in Q.
  - injection Q as <- <- _. exists [], t. auto.
  - injection Q as <- Q. destruct (IH _ _ _ _ Q) as (pre & post & -> & W). exists (OHandle u h' m' :: pre), post. split; [reflexivity|].
    change (OHandle u h' m' :: pre) with ([OHandle u h' m'] ++ pre). rewrite SystemProofs.handled_by_app, Z, W. reflexivity.
Qed.

(** no call of the hashes was sent in [p] *)
Definition unhashed (ct p : list (TsClientModel.tev (TsClientModel.t_msg CE))) : Prop :=
  forall b v k, In (VCall b (TsClientModel.WHash v)) ct -> ~ In (VNum b k SOk) p.

Lemma answered y0 y a w n p q : fresh PE CE u y0 -> reach PE CE K (patient CE) (confirmed PE u) u y0 y ->
  blen (concat (TsClientTrace.chunks CE (r_ct y))) < 2 ^ 64 ->
  r_run y = true -> r_ups y = [] -> serves (r_pt y) ->
  In (VCall a w) (r_ct y) -> r_ct y = p ++ VNum a n SOk :: q ->
  match w with TsClientModel.WAssign _ => unhashed (r_ct y) p | TsClientModel.WHash _ => True | _ => admitted (r_pt y) end ->
  exists x, In (OSend u n x true) (r_pt y).
Proof.
  intros FR R L RN UP (S1 & S2 & S3 & S4) CA Q UH.
  destruct (inv_reach PE CE K OK u y0 y FR R L) as (ups & downs & I). pose proof (i_link _ _ _ _ _ _ _ I) as LK.
  pose proof (l_run _ _ _ _ _ _ _ LK) as TR.
  destruct (C98_all_handled_partial PE CE K OK u y0 y FR R L) as (done & rest & E & F & Z). rewrite (Z RN UP S1), app_nil_r in E. subst done.
  assert (SU : TsSystemModel.sent_up CE (r_ct y) = TsSystemModel.sent_up CE p ++ (a, n) :: TsSystemModel.sent_up CE q).
  { rewrite Q, TsSystemProofs.sent_up_app. reflexivity. }
  rewrite SU in F. apply Forall2_app_inv_r in F. destruct F as (H1 & H2 & F1 & F2 & HQ).
  inversion F2 as [|[h m] an H3 l (HN & w' & CA' & G) F3]; subst. cbn [fst snd] in *. subst n.
  assert (w' = w) as ->.
  { destruct (call_act CE _ _ _ _ _ TR CA) as (g & C). destruct (call_act CE _ _ _ _ _ TR CA') as (g' & C'). congruence. }
  destruct (handled_at _ _ _ _ _ HQ) as (pre & post & PT & HP).
  destruct (r_ups_ok _ _ _ OK a w) as (_ & _ & m0 & G0 & D). rewrite G in G0. injection G0 as <-.
  pose proof (fut_reach PE CE K u _ _ y0 y FR R) as FT. pose proof (reasoned_reach PE CE K u _ _ y0 y FR R) as RS.
  assert (IN : forall o, In o post -> In o (r_pt y)) by (intros o J; rewrite PT, in_app_iff; right; right; exact J).
  assert (SV : admitted (r_pt y) -> ProducerModel.e_self PE m = None -> ProducerModel.e_hash PE m = None ->
    (forall r, ProducerModel.e_request PE m = Some r -> exists ids res t3, post = ProducerModel.OCall PE u r m ids res :: t3) /\
    (forall b, ProducerModel.e_request PE m = None -> ProducerModel.e_beacon PE m = Some b ->
       exists ids ok t3, post = ProducerModel.OBeacon PE u b m ids ok :: t3)).
  { intros AD E1 E2. apply (C98_requests_served_partial PE CE K OK u y0 y FR R L pre h m post PT E1 E2).
    destruct AD as [A|[A|A]]; auto. right. right. exact (A _ _ _ _ PT E1 E2). }
  destruct w as [auto|v|r o|b o].
  - destruct D as (D1 & D2).
    assert (NH : ~ hashy PE u pre).
    { intros (h' & m' & J & HH). assert (J' : In (h', m') (SystemModel.handled_by PE u pre)).
      { unfold SystemModel.handled_by. apply in_flat_map. eexists. split; [exact J|]. cbv beta iota. rewrite N.eqb_refl. left. reflexivity. }
      destruct (in_split _ _ J') as (x1 & x2 & X). rewrite HP in X. rewrite X in F1. apply Forall2_app_inv_l in F1. destruct F1 as (d1 & d2 & _ & F1 & SD).
      inversion F1 as [|? [b k] ? ? (_ & w & CB & GB) _]; subst. cbn [fst snd] in *.
      assert (VN : In (b, k) (TsSystemModel.sent_up CE p)) by (rewrite SD; apply in_elt). apply TsSystemProofs.in_sent_up in VN.
      destruct (r_ups_ok _ _ _ OK b w) as (_ & _ & mb & G' & DB). rewrite GB in G'. injection G' as <-.
      destruct w as [c|v|r o|c o]; try (destruct DB as (B1 & B2); congruence); try (destruct DB as (B1 & B2 & _); congruence).
      exact (UH _ _ _ CB VN). }
    destruct (welcome_reach PE CE K u _ _ y0 y FR R) as (WL & _).
    destruct (WL _ _ _ _ PT D1 NH) as [(t3 & T)|(ok & t3 & T)].
    + exfalso. eapply S2. apply IN. rewrite T. left. reflexivity.
    + destruct ok; [|exfalso; eapply S3; apply IN; rewrite T; left; reflexivity]. eexists. apply IN. rewrite T. left. reflexivity.
  - destruct D as (D1 & D2). destruct (FT _ _ _ PT _ D1 D2) as [(t3 & T)|(ok & t3 & T)].
    + exfalso. eapply S2. apply IN. rewrite T. left. reflexivity.
    + destruct ok; [|exfalso; eapply S3; apply IN; rewrite T; left; reflexivity]. eexists. apply IN. rewrite T. left. reflexivity.
  - destruct D as (D1 & D2 & D3). destruct (ProducerModel.e_request PE m) as [r0|] eqn:RQ; [|congruence].
    destruct (proj1 (SV UH D1 D2) _ eq_refl) as (ids & res & t3 & T). subst post.
    assert (Q2 : r_pt y = (pre ++ [OHandle u h m]) ++ ProducerModel.OCall PE u r0 m ids res :: t3) by (rewrite PT, <- app_assoc; reflexivity).
    destruct (FT _ _ _ Q2) as (seq & [(x & t4 & _ & T)|[(t4 & T)|[(t4 & T)|(os & t4 & T & _)]]]).
    + exfalso. eapply S2. apply IN. rewrite T. right. left. reflexivity.
    + exfalso. eapply S2. apply IN. rewrite T. right. left. reflexivity.
    + exfalso. eapply S3. apply IN. rewrite T. right. left. reflexivity.
    + exists (ProducerModel.PAnswer (ProducerMore.answer_of PE res)).
      assert (Q3 : r_pt y = (pre ++ [OHandle u h m; ProducerModel.OCall PE u r0 m ids res]) ++ OSend u seq (ProducerModel.PAnswer (ProducerMore.answer_of PE res)) true :: os ++ ProducerModel.ODeferred PE :: t4)
        by (rewrite PT, T, <- app_assoc; reflexivity).
      destruct (RS _ _ _ _ _ _ Q3) as (t0 & h' & m' & r' & ids' & res' & W1 & W2 & _).
      assert (h' = h).
      { apply (f_equal (@rev _)) in W1. rewrite !rev_app_distr in W1. cbn [rev app] in W1. injection W1. auto. }
      subst h' seq. apply IN. rewrite T. right. left. reflexivity.
  - destruct D as (D1 & D2 & D3 & D4). destruct (ProducerModel.e_beacon PE m) as [b0|] eqn:BQ; [|congruence].
    destruct (proj2 (SV UH D1 D2) _ D3 eq_refl) as (ids & ok & t3 & T). subst post.
    destruct ok; [|exfalso; eapply S4; apply IN; left; reflexivity].
    assert (Q2 : r_pt y = (pre ++ [OHandle u h m]) ++ ProducerModel.OBeacon PE u b0 m ids true :: t3) by (rewrite PT, <- app_assoc; reflexivity).
    destruct (FT _ _ _ Q2 eq_refl) as (seq & [(t4 & T)|[(t4 & T)|(t4 & T)]]).
    + exfalso. eapply S2. apply IN. rewrite T. right. left. reflexivity.
    + exfalso. eapply S3. apply IN. rewrite T. right. left. reflexivity.
    + exists ProducerModel.PBeacon.
      assert (Q3 : r_pt y = (pre ++ [OHandle u h m; ProducerModel.OBeacon PE u b0 m ids true]) ++ OSend u seq ProducerModel.PBeacon true :: ProducerModel.ODeferred PE :: t4)
        by (rewrite PT, T, <- app_assoc; reflexivity).
      destruct (RS _ _ _ _ _ _ Q3) as (t0 & h' & m' & b' & ids' & W1 & W2 & _).
      assert (h' = h).
      { apply (f_equal (@rev _)) in W1. rewrite !rev_app_distr in W1. cbn [rev app] in W1. injection W1. auto. }
      subst h' seq. apply IN. rewrite T. right. left. reflexivity.
Qed.

(** ** The client has read *)
Lemma all_read y ups downs n x : link PE CE K u y ups downs -> blen (concat (TsClientTrace.chunks CE (r_ct y))) < 2 ^ 64 ->
  r_downs y = [] -> TsClientModel.c_drain (r_c y) = false -> In (OSend u n x true) (r_pt y) ->
  exists h m, In (VRead h m) (r_ct y) /\ h_seq h = n mod 2 ^ 32.
Proof.
  intros I L DN DR J. destruct (downs_ok PE CE K OK _ _ (l_downs _ _ _ _ _ _ _ I)) as (PK & GD).
  destruct (TsClientTrace.trun_feeds CE _ _ _ (l_run _ _ _ _ _ _ _ I)) as (FD & ST).
  destruct (TsSystemProofs.fed_prefix _ _ _ _ _ _ _ _ FD PK (good_quiet _ _ _ GD) (count_bad_good _ _ _ GD) (l_down _ _ _ _ _ _ _ I) L) as (j & Q & OS & ALL).
  rewrite (ALL DN) in Q.
  assert (EQ : rb_queue (TsClientModel.c_buf (r_c y)) = []).
  { destruct (rb_queue (TsClientModel.c_buf (r_c y))) as [|e r]; [reflexivity|].
    destruct (ST DR ltac:(discriminate)) as (os & x' & E & NE). rewrite E in OS. apply Forall_app in OS as (_ & OS).
    inversion OS as [|? ? W]. elim NE. symmetry. exact W. }
  rewrite EQ, app_nil_r in Q.
  assert (S : In (n, x) (SystemModel.sent_down PE u (r_pt y))) by (apply SystemProofs.in_sent_down; exact J).
  assert (P : exists q, In q downs /\ exists ts, q = TsSystemModel.frame (ProducerModel.e_sig PE) (r_down _ K x) n ts).
  { pose proof (l_downs _ _ _ _ _ _ _ I) as F. unfold down_packets in F. clear - F S.
    induction F as [|np q l l' H F IH]; [elim S|]. destruct S as [->|S]; [exists q; split; [left; reflexivity|exact H]|].
    destruct (IH S) as (q' & H1 & H2). exists q'. split; [right; exact H1|exact H2]. }
  destruct P as (q & HQ & ts & ->). destruct (r_downs_ok _ _ _ OK x) as (_ & _ & m & G & _).
  exists (hdr (TsSystemModel.frame (ProducerModel.e_sig PE) (r_down _ K x) n ts)), m. split; [|reflexivity].
  assert (W : In (hdr (TsSystemModel.frame (ProducerModel.e_sig PE) (r_down _ K x) n ts), m) (TsClientTrace.reads CE (r_ct y))).
  { rewrite Q. apply in_flat_map. eexists. split; [exact HQ|]. unfold deliver. cbn [TsSystemModel.frame p_sig p_id p_body].
    rewrite (r_sig _ _ _ OK), N.eqb_refl, G. left. reflexivity. }
  unfold TsClientTrace.reads in W. apply in_flat_map in W as (e & He & W). destruct e; try (elim W; fail).
  destruct W as [W|[]]. injection W as -> ->. exact He.
Qed.

(** The message with a number is sent before an answer with it is read. *)
Lemma read_after y0 y : fresh PE CE u y0 -> reach PE CE K (patient CE) (confirmed PE u) u y0 y ->
  blen (concat (TsClientTrace.chunks CE (r_ct y))) < 2 ^ 64 ->
  forall p h m q, r_ct y = p ++ VRead h m :: q -> h_seq h <> 0 -> unused (h_seq h) (r_pt y) ->
  exists a, In (VNum a (h_seq h) SOk) p.
Proof.
  intros FR R. induction R as [|y1 y2 R IH M].
  - intros _ p h m q E. destruct FR as (_ & _ & _ & _ & _ & X & _). rewrite X in E. destruct p; discriminate E.
  - intros L p h m q E NZ NA.
    assert (R2 : reach PE CE K (patient CE) (confirmed PE u) u y0 y2) by (eapply reach_move; eassumption).
    destruct (inv_reach PE CE K OK u y0 y2 FR R2 L) as (ups & downs & I). pose proof (reasoned_reach PE CE K u _ _ y0 y2 FR R2) as RS.
    assert (OLD : forall es es', r_pt y2 = r_pt y1 ++ es -> r_ct y2 = r_ct y1 ++ es' ->
      (forall e1 e2, es' = e1 ++ VRead h m :: e2 -> e1 = [] /\ forall a n r, ~ In (VNum a n r) e2) ->
      exists a, In (VNum a (h_seq h) SOk) p).
    { intros es es' E1 E2 HV.
      assert (L1 : blen (concat (TsClientTrace.chunks CE (r_ct y1))) < 2 ^ 64).
      { rewrite E2 in L. unfold TsClientTrace.chunks in *. rewrite flat_map_app, concat_app, blen_app in L. lia. }
      pose proof E as E0. rewrite E2 in E. destruct (SystemAnswers.split_app _ _ _ _ _ E) as [(l & E3)|(l & E3 & E4)].
      - apply (IH L1 _ _ _ _ E3 NZ). intros k x W. apply (NA k x). rewrite E1. apply in_app_iff. auto.
      - destruct (HV _ _ E4) as (-> & NV). rewrite app_nil_r in E3. subst p.
        assert (IN : In (VRead h m) (r_ct y2)) by (rewrite E0; apply in_elt).
        destruct (own PE CE K OK u _ _ _ _ _ I RS L IN NZ NA) as (a & w & _ & _ & _ & _ & _ & _ & _ & W & _).
        exists a. rewrite E0 in W. apply in_app_iff in W as [W|[W|W]]; [exact W|discriminate W|elim (NV _ _ _ W)]. }
    destruct M as [y e t s' r qs Rn Ap St Dn|y n t s' r qs Rn DD Ln St Dn|y n x ok qs t Dn|y l s' es qs O O2 F' U|y n fuel s' es qs l Ln F' U];
      cbn [CrossModel.r_pt CrossModel.r_ct] in OLD.
    + apply (OLD t []); [reflexivity|rewrite app_nil_r; reflexivity|]. intros [|] ? W; discriminate W.
    + apply (OLD t []); [reflexivity|rewrite app_nil_r; reflexivity|]. intros [|] ? W; discriminate W.
    + apply (OLD t []); [reflexivity|rewrite app_nil_r; reflexivity|]. intros [|] ? W; discriminate W.
    + apply (OLD [] es); [rewrite app_nil_r; reflexivity|reflexivity|]. intros e1 e2 ->. exact (PropTsSystem.by_vread CE _ _ _ _ _ _ _ F').
    + apply (OLD [] es); [rewrite app_nil_r; reflexivity|reflexivity|]. intros e1 e2 ->. exact (PropTsSystem.by_vread CE _ _ _ _ _ _ _ F').
Qed.

(** ** C103 *)

(** At rest, every call that could be sent has ended, unless it is an [assign] that was
    sent after the hashes.  (Partial: bytes of the client reach the producer only after
    its confirmation, the application of the client is patient, the producer serves the
    client and, if the call is a request or a beacon, admits it, its application does not
    use the number of the call, and less than 2^64 bytes have come.) *)
Theorem C103_calls_end_partial : forall y0 y a w n p q,
  fresh PE CE u y0 -> reach PE CE K (patient CE) (confirmed PE u) u y0 y -> blen (concat (TsClientTrace.chunks CE (r_ct y))) < 2 ^ 64 ->
  at_rest y -> serves (r_pt y) -> unused n (r_pt y) ->
  In (VCall a w) (r_ct y) -> r_ct y = p ++ VNum a n SOk :: q ->
  match w with TsClientModel.WAssign _ => unhashed (r_ct y) p | TsClientModel.WHash _ => True | _ => admitted (r_pt y) end ->
  exists r, In (TsClientModel.VRet a r) q.
Proof.
  intros y0 y a w n p q FR R L (RN & UP & DN & AT) SV NB CA E UH.
  destruct (inv_reach PE CE K OK u y0 y FR R L) as (ups & downs & I). pose proof (i_link _ _ _ _ _ _ _ I) as LK.
  pose proof (l_run _ _ _ _ _ _ _ LK) as TR.
  destruct (answered y0 y a w n p q FR R L RN UP SV CA E UH) as (x & J).
  destruct (all_read _ _ _ _ _ LK L DN (proj1 AT) J) as (h & m & HR & HN).
  assert (IN : In (VNum a n SOk) (r_ct y)) by (rewrite E; apply in_elt).
  destruct (num_small CE _ _ _ _ _ TR IN) as (NS & NZ). rewrite NS in HN. subst n.
  apply in_split in HR as (p' & q' & E').
  destruct (read_after y0 y FR R L _ _ _ _ E' NZ NB) as (a' & W).
  assert (VR : In (VRead h m) q).
  { pose proof W as W'. apply in_split in W' as (w1 & w2 & ->).
    assert (IN' : In (VNum a' (h_seq h) SOk) (r_ct y)) by (rewrite E'; apply in_app_iff; left; exact W).
    assert (a' = a) as -> by exact (num_inj CE _ _ _ _ _ _ _ _ TR IN' IN).
    rewrite <- app_assoc in E'. cbn [app] in E'. rewrite E in E'.
    destruct (SystemAnswers.split_app _ _ _ _ _ E') as [(l & Z)|(l & Z & Z')].
    - exfalso. rewrite Z, <- app_assoc in E. cbn [app] in E.
      pose proof (PropTsClient.C78_numbers_differ CE _ _ _ _ _ _ _ _ _ _ _ _ TR E). lia.
    - destruct l as [|e l]; cbn [app] in Z'.
      + injection Z' as ->. apply in_elt.
      + injection Z' as <- Z'. rewrite Z' in E. pose proof (PropTsClient.C78_numbers_differ CE _ _ _ _ _ _ _ _ _ _ _ _ TR E). lia. }
  exact (PropTsClient.C80_answered_calls_end_partial CE _ _ _ _ _ _ _ h m TR AT E VR eq_refl).
Qed.

Lemma order_reach y0 y : fresh PE CE u y0 -> reach PE CE K (patient CE) (confirmed PE u) u y0 y ->
  (forall a r, ~ In (TsClientModel.LAssign a r) (r_cl y)) -> TsSystemOrder.order CE (r_c y) (r_ct y).
Proof.
  intros FR R. induction R as [|y1 y2 R IH M]; intros NL.
  - destruct FR as (_ & _ & _ & C & _ & X & _). rewrite C, X. apply TsSystemOrder.order_start; [intros []|reflexivity|reflexivity|intros v []].
  - destruct (link_reach PE CE K u _ _ y0 y1 FR R) as (ups & downs & I).
    destruct M as [y e t s' r qs Rn Ap St Dn|y n t s' r qs Rn DD Ln St Dn|y n x ok qs t Dn|y l s' es qs O O2 F' U|y n fuel s' es qs l Ln F' U];
      cbn [CrossModel.r_c CrossModel.r_cl CrossModel.r_ct] in *; auto.
    + assert (NL1 : forall a r, ~ In (TsClientModel.LAssign a r) (r_cl y)) by (intros a r J; apply (NL a r), in_app_iff; auto).
      assert (PA : TsSystemModel.patient CE (r_ct y) l).
      { destruct l; cbn [TsSystemModel.patient patient] in *; auto. eapply (NL a r). apply in_app_iff. right. left. reflexivity. }
      exact (TsSystemOrder.order_step CE _ _ _ _ _ _ (l_run _ _ _ _ _ _ _ I) F' (or_introl O) PA (IH NL1)).
    + assert (NL1 : forall a r, ~ In (TsClientModel.LAssign a r) (r_cl y)) by (intros a r J; apply (NL a r), in_app_iff; auto).
      eapply (TsSystemOrder.order_step CE _ _ _ _ _ _ (l_run _ _ _ _ _ _ _ I) F'); [right; exists (firstn n (r_downs y)), fuel; reflexivity|exact Logic.I|exact (IH NL1)].
Qed.

(** At rest, a client that was connected and could send is ready, with the uuid that the
    producer has for it.  (Partial: as above; the application of the client has not called
    [assign], the self key and the hashes are not also requests or beacons, and every
    message of the producer's application carries the number 0.) *)
Theorem C103_ready_partial : forall y0 y,
  fresh PE CE u y0 -> reach PE CE K (patient CE) (confirmed PE u) u y0 y -> blen (concat (TsClientTrace.chunks CE (r_ct y))) < 2 ^ 64 ->
  at_rest y -> serves (r_pt y) ->
  (forall k x, In (OSend u k (ProducerModel.PBroadcast x) true) (r_pt y) -> k mod 2 ^ 32 = 0) ->
  (forall a r, ~ In (TsClientModel.LAssign a r) (r_cl y)) ->
  (forall a w m, ProducerModel.e_get PE (fst (r_up _ K a w)) (snd (r_up _ K a w)) = Ok m ->
     ProducerModel.e_self PE m <> None \/ ProducerModel.e_hash PE m <> None ->
     ProducerModel.e_request PE m = None /\ ProducerModel.e_beacon PE m = None) ->
  In TsClientModel.VConnected (r_ct y) ->
  (forall a n r, In (VNum a n r) (r_ct y) -> r = SOk) ->
  exists v m, In (TsClientModel.VReady v) (r_ct y) /\
    TsClientModel.t_get CE (fst (r_down _ K (ProducerModel.PSelf u))) (snd (r_down _ K (ProducerModel.PSelf u))) = Ok m /\
    TsClientModel.t_self CE m = Some v.
Proof.
  intros y0 y FR R L RS SV NA NL PL VC SO. destruct (inv_reach PE CE K OK u y0 y FR R L) as (ups & downs & I). pose proof (i_link _ _ _ _ _ _ _ I) as LK.
  pose proof (l_run _ _ _ _ _ _ _ LK) as TR. pose proof (reasoned_reach PE CE K u _ _ y0 y FR R) as RE.
  assert (CALL : forall a w g n, TsClientModel.c_act (r_c y) a = Some (w, g) -> In (VNum a n SOk) (r_ct y) -> In (VCall a w) (r_ct y)).
  { intros a w g n C W. pose proof (TsClientProofs.i_shape CE _ _ (TsClientProofs.trun_inv CE _ _ _ TR) a) as SH. rewrite C in SH.
    assert (LI : forall x, In x (TsClientProofs.life CE a (r_ct y)) -> In x (r_ct y)) by (intros x Z; apply filter_In in Z; tauto).
    destruct g as [k|k m|v|]; cbn [TsClientProofs.shape] in SH.
    - apply LI. rewrite SH. left. reflexivity.
    - apply LI. rewrite SH. left. reflexivity.
    - destruct SH as (k & m & _ & _ & SH). apply LI. rewrite SH. left. reflexivity.
    - destruct SH as [(ob & e & _ & _ & S)|[(k & r & e & _ & _ & S)|(k & m & r & _ & S)]]; apply LI; rewrite S; left; reflexivity. }
  assert (ENDS : forall a w g n, TsClientModel.c_act (r_c y) a = Some (w, g) -> (exists v, w = TsClientModel.WHash v) \/ (w = TsClientModel.WAssign true /\ exists l, TsSystemModel.sent_up CE (r_ct y) = (a, n) :: l) ->
    In (a, n) (TsSystemModel.sent_up CE (r_ct y)) -> g = TsClientModel.TDone).
  { intros a w g n C WW W. apply TsSystemProofs.in_sent_up in W. pose proof (CALL _ _ _ _ C W) as CA.
    destruct (num_small CE _ _ _ _ _ TR W) as (_ & NZ). destruct (in_split _ _ W) as (p & q & E).
    assert (VR : exists r, In (TsClientModel.VRet a r) q).
    { apply (C103_calls_end_partial y0 y a w n p q FR R L RS SV); [intros k x J HE; rewrite (NA _ _ J) in HE; auto|exact CA|exact E|].
      destruct WW as [(v & ->)|(-> & l & SU)]; [exact Logic.I|]. intros b v k _ J.
      rewrite E, TsSystemProofs.sent_up_app in SU. apply TsSystemProofs.in_sent_up in J.
      destruct (TsSystemModel.sent_up CE p) as [|x l'] eqn:SP; [elim J|]. cbn [app] in SU. injection SU as -> _.
      assert (J2 : In (a, n) (TsSystemModel.sent_up CE p)) by (rewrite SP; left; reflexivity). apply TsSystemProofs.in_sent_up in J2.
      destruct (in_split _ _ J2) as (p1 & p2 & ->). rewrite <- app_assoc in E. cbn [app] in E.
      pose proof (PropTsClient.C78_numbers_differ CE _ _ _ _ _ _ _ _ _ _ _ _ TR E). lia. }
    destruct VR as (r & HR). assert (HR' : In (TsClientModel.VRet a r) (r_ct y)) by (rewrite E; apply in_app_iff; right; right; exact HR).
    destruct RS as (_ & _ & _ & _ & RS). pose proof (RS a) as RA. rewrite C in RA.
    destruct g as [k| | |]; try (elim RA; fail); [|reflexivity]. exfalso.
    pose proof (TsClientProofs.i_shape CE _ _ (TsClientProofs.trun_inv CE _ _ _ TR) a) as SH. rewrite C in SH. cbn [TsClientProofs.shape] in SH.
    apply (TsClientTrace.in_life CE a) in HR'; [|apply Nat.eqb_refl]. rewrite SH in HR'. repeat destruct HR' as [HR'|HR']; try discriminate HR'; exact HR'. }
  assert (UNSENT : forall a w, TsClientModel.c_act (r_c y) a = Some (w, TsClientModel.TDone) -> TsClientProofs.on w = None ->
            exists n, In (a, n) (TsSystemModel.sent_up CE (r_ct y))).
  { intros a w C ON. pose proof (TsClientProofs.i_shape CE _ _ (TsClientProofs.trun_inv CE _ _ _ TR) a) as SH.
    rewrite C in SH. cbn [TsClientProofs.shape] in SH.
    assert (LI : forall n r, In (VNum a n r) (TsClientProofs.life CE a (r_ct y)) -> In (a, n) (TsSystemModel.sent_up CE (r_ct y))).
    { intros n r W. apply filter_In in W as (W & _). rewrite (SO _ _ _ W) in W. apply TsSystemProofs.in_sent_up. exact W. }
    destruct SH as [(ob & e & ON' & _)|[(n & r & e & _ & _ & S)|(n & m & r & _ & S)]]; [congruence| |];
      exists n; eapply LI; rewrite S; right; left; reflexivity. }
  assert (OWN : forall a w n m, TsClientModel.c_act (r_c y) a = Some (w, TsClientModel.TDone) -> In (TsClientModel.VMatch a n m) (r_ct y) ->
            match w with
            | TsClientModel.WAssign _ => exists v, TsClientModel.t_self CE m = Some v /\ TsClientModel.t_blank CE v = false
            | TsClientModel.WHash _ => TsClientModel.t_hash CE m = Some None
            | _ => True
            end).
  { intros a w n m C VM. pose proof VM as VM0. apply in_split in VM as (y1 & y2 & VM).
    destruct (TsClientTrace.match_after_read CE _ _ _ _ _ _ _ _ TR VM) as (y3 & h & -> & HN).
    assert (HR : In (VRead h m) (r_ct y)) by (rewrite VM, <- app_assoc; apply in_app_iff; right; left; reflexivity).
    pose proof (TsClientProofs.i_shape CE _ _ (TsClientProofs.trun_inv CE _ _ _ TR) a) as SH. rewrite C in SH. cbn [TsClientProofs.shape] in SH.
    assert (VL : In (TsClientModel.VMatch a n m) (TsClientProofs.life CE a (r_ct y))).
    { apply (TsClientTrace.in_life CE a); [apply Nat.eqb_refl|]. exact VM0. }
    destruct SH as [(ob & e & _ & _ & S)|[(n' & r & e & _ & _ & S)|(n' & m' & r & _ & S)]]; rewrite S in VL;
      repeat destruct VL as [VL|VL]; try discriminate VL; try (elim VL; fail). injection VL as -> ->.
    assert (LI : forall x, In x (TsClientProofs.life CE a (r_ct y)) -> In x (r_ct y)) by (intros x W; apply filter_In in W; tauto).
    assert (HM : In (VNum a n SOk) (r_ct y)) by (apply LI; rewrite S; right; left; reflexivity).
    destruct (num_small CE _ _ _ _ _ TR HM) as (_ & NZ). subst n.
    destruct (own PE CE K OK u _ _ _ _ _ I RE L HR NZ) as (a' & w' & h' & mm & p & t0 & l & t2 & H1 & H2 & H3 & H4 & H5 & H6 & H7).
    { intros k x W W'. rewrite (NA _ _ W) in W'. auto. }
    assert (a' = a) as -> by exact (num_inj CE _ _ _ _ _ _ _ _ TR H2 HM).
    destruct (call_act CE _ _ _ _ _ TR H1) as (g' & C'). rewrite C in C'. injection C' as <- _.
    destruct (r_ups_ok _ _ _ OK a w) as (_ & _ & mu & GU & KU). rewrite H5 in GU. injection GU as <-.
    destruct (r_downs_ok _ _ _ OK p) as (_ & _ & md & GD & KD). rewrite H6 in GD. injection GD as <-.
    destruct w as [auto|v|k ob|b ob]; [| |exact Logic.I|exact Logic.I]; destruct KU as (KU1 & KU2).
    - destruct (PL _ _ _ H5 (or_introl KU1)) as (P1 & P2). destruct p as [v|b| | |x|x]; try (elim H7; fail).
      + destruct KD as (_ & KD). exact KD.
      + destruct H7 as (_ & pw & H7 & _). congruence.
      + destruct H7 as (b & ids & _ & _ & H7). congruence.
      + destruct H7 as (q & ids & res & _ & H7 & _). congruence.
    - destruct (PL _ _ _ H5) as (P1 & P2); [right; congruence|]. destruct p as [v'|b| | |x|x]; try (elim H7; fail).
      + destruct H7 as (_ & _ & H7). congruence.
      + destruct H7 as (-> & pw & HP & ->). rewrite KU2 in HP. injection HP as <-.
        assert (HV : ProducerModel.hash_valid PE (ProducerModel.e_phash PE, ProducerModel.e_whash PE) = true) by apply SystemServer.valid_own.
        rewrite HV in *. destruct KD as (_ & e & KD & KE). rewrite (proj2 KE eq_refl) in KD. exact KD.
      + destruct H7 as (b & ids & _ & _ & H7). congruence.
      + destruct H7 as (q & ids & res & _ & H7 & _). congruence. }
  assert (RDY : exists v, In (TsClientModel.VReady v) (r_ct y)).
  { destruct (order_reach y0 y FR R NL) as [H1 H2 H3 H4|a g H1 H2 H3 H4 H5|a b v g n H1 H0 H2 H3 H4 H5 H6|a b v n k rest H1 H0 H2 H3 H4 H5 HR H6].
    - elim (H1 VC).
    - exfalso. destruct H5 as [(n & H5 & H6)|(H5 & ->)].
      + assert (g = TsClientModel.TDone) as ->.
        { apply (ENDS _ _ _ n H2); [right; split; [reflexivity|eauto]|]. rewrite H5. left. reflexivity. }
        destruct (H6 eq_refl) as (m & VM & NU). destruct (OWN _ _ _ _ H2 VM) as (x & X1 & X2).
        destruct NU as [NU|(x' & NU & NB)]; congruence.
      + destruct (UNSENT _ _ H2 eq_refl) as (n & W). rewrite H5 in W. elim W.
    - exfalso. destruct H6 as [(k & H6 & H7)|(H6 & ->)].
      + assert (g = TsClientModel.TDone) as ->.
        { apply (ENDS _ _ _ k H3); [left; eauto|]. rewrite H6. right. left. reflexivity. }
        destruct (H7 eq_refl) as (m & VM & NH). exact (NH (OWN _ _ _ _ H3 VM)).
      + destruct (UNSENT _ _ H3 eq_refl) as (k & W). rewrite H6 in W. destruct W as [W|[]]. injection W as W _. auto.
    - exact HR. }
  destruct RDY as (v & RDY). destruct (C99_ready_means_accepted_partial PE CE K OK _ _ u y0 y v FR R L RDY) as ((n & m & _ & G & T) & _).
  exists v, m. auto.
Qed.
End Statements.
Print Assumptions C103_calls_end_partial.
Print Assumptions C103_ready_partial.

(** ** Concrete cases *)
Local Ltac never J := vm_compute in J; repeat (destruct J as [J|J]; [discriminate J|]); elim J.
Local Ltac resting := split; [vm_compute; reflexivity|split; [vm_compute; reflexivity|split; [vm_compute; reflexivity|split; [vm_compute; reflexivity|
  let a := fresh in intro a; do 8 (destruct a as [|a]; [vm_compute; exact I|]); vm_compute; exact I]]]].
Definition kind_of (PE : ProducerModel.env) (u : N) (beacons : bool) (o : ProducerModel.out PE) : bool :=
  match o with
  | ProducerModel.ODisc _ v _ => negb (v =? u)
  | ProducerModel.OUnpacked _ _ _ _ => false
  | ProducerModel.OSend _ _ k p ok => ok && match p with ProducerModel.PBroadcast _ => k mod 2 ^ 32 =? 0 | _ => true end
  | ProducerModel.OBeacon _ _ _ _ _ ok => ok || negb beacons
  | _ => true
  end.
Lemma kind_serves PE u b pt : forallb (kind_of PE u b) pt = true ->
  (forall ok, ~ In (ProducerModel.ODisc PE u ok) pt) /\ (forall v n p, ~ In (ProducerModel.OUnpacked PE v n p) pt) /\
  (forall v n p, ~ In (ProducerModel.OSend PE v n p false) pt) /\ (b = true -> forall v k m ids, ~ In (ProducerModel.OBeacon PE v k m ids false) pt) /\
  (forall v k x, In (ProducerModel.OSend PE v k (ProducerModel.PBroadcast x) true) pt -> k mod 2 ^ 32 = 0).
Proof.
  intro H. rewrite forallb_forall in H.
  split; [intros ok J; apply H in J; cbn [kind_of] in J; rewrite N.eqb_refl in J; discriminate J|].
  split; [intros v n p J; apply H in J; discriminate J|]. split; [intros v n p J; apply H in J; discriminate J|].
  split; [intros -> v k m ids J; apply H in J; discriminate J|].
  intros v k x J. apply H in J. apply N.eqb_eq. exact J.
Qed.
Lemma kind_all PE u pt : forallb (kind_of PE u true) pt = true -> serves PE u pt.
Proof.
  intro H. destruct (kind_serves _ _ _ _ H) as (A & B & C & D & _). split; [exact A|]. split; [intros n p; apply B|]. split; [intros n p; apply C|].
  intros b m ids. apply D. reflexivity.
Qed.
Lemma kind_zero PE u b pt : forallb (kind_of PE u b) pt = true ->
  forall k x, In (ProducerModel.OSend PE u k (ProducerModel.PBroadcast x) true) pt -> k mod 2 ^ 32 = 0.
Proof. intros H k x. apply (kind_serves _ _ _ _ H). Qed.
Local Ltac serving := apply kind_all; vm_compute; reflexivity.
Definition ended (cs : list step) : xsys SE KE := match play SE KE demo_codec true 4 start cs with Some y => y | None => start end.
Lemma ended_reach cs : match play SE KE demo_codec true 4 start cs with Some _ => True | None => False end ->
  reach SE KE demo_codec (patient KE) (confirmed SE 4) 4 start (ended cs).
Proof.
  unfold ended. destruct (play SE KE demo_codec true 4 start cs) as [y|] eqn:R; [|intros []]. intros _.
  exact (play_reach _ _ _ _ _ _ _ _ _ (reach_start _ _ _ _ _ _ _) R).
Qed.

(** All calls of [asks] of PropCross.v: the handshake, a request and a beacon *)
Example C103_example : compatible SE KE demo_codec /\ fresh SE KE 4 start /\ exists y,
  reach SE KE demo_codec (patient KE) (confirmed SE 4) 4 start y /\
  blen (concat (TsClientTrace.chunks KE (r_ct _ _ y))) < 2 ^ 64 /\ at_rest SE KE y /\ serves SE 4 (r_pt _ _ y) /\ admitted SE 4 (r_pt _ _ y) /\
  (forall k x, In (ProducerModel.OSend SE 4 k (ProducerModel.PBroadcast x) true) (r_pt _ _ y) -> k mod 2 ^ 32 = 0) /\
  (forall a r, ~ In (TsClientModel.LAssign a r) (r_cl _ _ y)) /\
  In TsClientModel.VConnected (r_ct _ _ y) /\ (forall a n r, In (TsClientModel.VNum a n r) (r_ct _ _ y) -> r = TsClientModel.SOk) /\
  In (TsClientModel.VCall 3 (TsClientModel.WBeacon 0 1)) (r_ct _ _ y) /\ In (TsClientModel.VNum 3 4 TsClientModel.SOk) (r_ct _ _ y).
Proof.
  split; [exact demo_compatible|]. split; [exact start_fresh|]. exists (ended asks). split; [apply ended_reach; vm_compute; exact I|].
  split; [vm_compute; reflexivity|]. split; [resting|]. split; [serving|]. split; [left; reflexivity|].
  split; [apply (kind_zero _ _ true); vm_compute; reflexivity|].
  split; [intros a r J; never J|]. split; [vm_compute; member|].
  split. { intros a n r J. vm_compute in J. repeat (destruct J as [J|J]; [solve [discriminate J|injection J as _ _ <-; reflexivity]|]). elim J. }
  split; vm_compute; member.
Qed.
Example C103_plain_example : forall a w m, ProducerModel.e_get SE (fst (r_up _ demo_codec a w)) (snd (r_up _ demo_codec a w)) = Ok m ->
  ProducerModel.e_self SE m <> None \/ ProducerModel.e_hash SE m <> None ->
  ProducerModel.e_request SE m = None /\ ProducerModel.e_beacon SE m = None.
Proof. intros a [b|v|r o|b o] m G H; vm_compute in G; injection G as <-; cbn in *; try (split; reflexivity); destruct H as [H|H]; elim H; reflexivity. Qed.
Example C103_unhashed_example : exists y,
  reach SE KE demo_codec (patient KE) (confirmed SE 4) 4 start y /\ at_rest SE KE y /\ serves SE 4 (r_pt _ _ y) /\
  exists p q, In (TsClientModel.VCall 0 (TsClientModel.WAssign true)) (r_ct _ _ y) /\
    r_ct _ _ y = p ++ TsClientModel.VNum 0 1 TsClientModel.SOk :: q /\ unhashed KE (r_ct _ _ y) p /\ In (TsClientModel.VRet 0 (TsClientModel.RetUuid (le 16 4))) q.
Proof.
  exists (ended greet). split; [apply ended_reach; vm_compute; exact I|]. split; [resting|]. split; [serving|]. eexists _, _. split; [vm_compute; member|]. split; [vm_compute; apply (eq_refl ([_] ++ _ :: _))|].
  split; [|vm_compute; member]. intros b v k _ J. never J.
Qed.

(** An [assign] of the application after the handshake is never answered: the producer
    takes the self key of a client whose hashes it has accepted for a request that it
    does not know. *)
Theorem C103_assign_refuted : exists PE CE K u y0 y a n,
  compatible PE CE K /\ fresh PE CE u y0 /\ reach PE CE K (patient CE) (confirmed PE u) u y0 y /\
  blen (concat (TsClientTrace.chunks CE (r_ct _ _ y))) < 2 ^ 64 /\ at_rest PE CE y /\ serves PE u (r_pt _ _ y) /\ admitted PE u (r_pt _ _ y) /\
  unused PE u n (r_pt _ _ y) /\
  In (TsClientModel.VNum a n TsClientModel.SOk) (r_ct _ _ y) /\ forall r, ~ In (TsClientModel.VRet a r) (r_ct _ _ y).
Proof.
  exists SE, KE, demo_codec, 4, start.
  exists (ended (greet ++ [ByClient (TsClientModel.LAssign 2 TsClientModel.SOk); Receive])), 2%nat, 3.
  split; [exact demo_compatible|]. split; [exact start_fresh|]. split; [apply ended_reach; vm_compute; exact I|].
  split; [vm_compute; reflexivity|]. split; [resting|]. split; [serving|]. split; [left; reflexivity|].
  split; [intros k x J; apply (kind_zero SE 4 true) in J; [rewrite J; discriminate|vm_compute; reflexivity]|]. split; [vm_compute; member|]. intros r J. never J.
Qed.
Print Assumptions C103_assign_refuted.

(** The producer's application takes no beacon. *)
Definition deaf : ProducerModel.env := {|
  ProducerModel.e_world := unit; ProducerModel.e_msg := N * bytes; ProducerModel.e_user := N;
  ProducerModel.e_get := ProducerModel.e_get SE; ProducerModel.e_sig := 5;
  ProducerModel.e_self := ProducerModel.e_self SE; ProducerModel.e_hash := ProducerModel.e_hash SE;
  ProducerModel.e_request := ProducerModel.e_request SE; ProducerModel.e_beacon := ProducerModel.e_beacon SE;
  ProducerModel.e_requests := ProducerModel.e_requests SE; ProducerModel.e_events := fun _ => [false];
  ProducerModel.e_connected := [false]; ProducerModel.e_disconnected := [true];
  ProducerModel.e_self_opt := [false]; ProducerModel.e_assigned_opt := [true; false];
  ProducerModel.e_phash := [x0a]; ProducerModel.e_whash := [x0b];
  ProducerModel.e_is := ProducerModel.IIgnore; ProducerModel.e_cs := ProducerModel.SEmitDisc;
  ProducerModel.w_pack := fun w p => (w, true);
  ProducerModel.w_send := fun w u seq p => (w, true);
  ProducerModel.w_disconnect := fun w u => (w, true);
  ProducerModel.w_request := ProducerModel.w_request SE;
  ProducerModel.w_beacon := fun w b i ids m => (w, false);
  ProducerModel.w_event := ProducerModel.w_event SE;
  ProducerModel.w_connected := ProducerModel.w_connected SE;
  ProducerModel.w_disconnected := ProducerModel.w_disconnected SE;
  ProducerModel.w_error := fun w e u i => (w, true);
  ProducerModel.w_ready := fun w => (w, true);
  ProducerModel.w_deferred := fun w => w |}.
Definition deaf_codec : xcodec deaf := mkXcodec deaf (r_up _ demo_codec) (r_down _ demo_codec).
Definition deaf_start : xsys deaf KE :=
  mkXsys deaf KE (PropProducer.final deaf tt [ProducerModel.VConnected 4]) true [] TsClientModel.tinit [] [] [] [].
Theorem C103_beacon_refuted : exists PE CE K u y0 y a b o n,
  compatible PE CE K /\ fresh PE CE u y0 /\ reach PE CE K (patient CE) (confirmed PE u) u y0 y /\
  blen (concat (TsClientTrace.chunks CE (r_ct _ _ y))) < 2 ^ 64 /\ at_rest PE CE y /\
  (forall ok, ~ In (ProducerModel.ODisc PE u ok) (r_pt _ _ y)) /\
  (forall v k p, ~ In (ProducerModel.OSend PE v k p false) (r_pt _ _ y)) /\ (forall v k p, ~ In (ProducerModel.OUnpacked PE (Some v) k p) (r_pt _ _ y)) /\
  admitted PE u (r_pt _ _ y) /\ unused PE u n (r_pt _ _ y) /\
  In (TsClientModel.VCall a (TsClientModel.WBeacon b o)) (r_ct _ _ y) /\ In (TsClientModel.VNum a n TsClientModel.SOk) (r_ct _ _ y) /\
  forall r, ~ In (TsClientModel.VRet a r) (r_ct _ _ y).
Proof.
  exists deaf, KE, deaf_codec, 4, deaf_start.
  set (cs := greet ++ [ByClient (TsClientModel.LSend 2 (TsClientModel.WBeacon 0 1) TsClientModel.SOk); Receive]).
  exists (match play deaf KE deaf_codec true 4 deaf_start cs with Some y => y | None => deaf_start end), 2%nat, 0%nat, 1%nat, 3.
  split. { destruct demo_compatible as [A B C D]. split; [exact A|exact B|exact C|exact D]. }
  split; [repeat split|].
  split.
  { destruct (play deaf KE deaf_codec true 4 deaf_start cs) as [y|] eqn:R; [|constructor].
    exact (play_reach _ _ _ _ _ _ _ _ _ (reach_start _ _ _ _ _ _ _) R). }
  split; [vm_compute; reflexivity|]. split; [resting|].
  destruct (kind_serves deaf 4 false (r_pt _ _ (match play deaf KE deaf_codec true 4 deaf_start cs with Some y => y | None => deaf_start end))) as (A & B & C & _ & D);
    [vm_compute; reflexivity|].
  split; [exact A|]. split; [exact C|]. split; [intros v; apply (B (Some v))|].
  split; [left; reflexivity|]. split; [intros k x J; rewrite (D _ _ _ J); discriminate|]. split; [vm_compute; member|]. split; [vm_compute; member|]. intros r J. never J.
Qed.
Print Assumptions C103_beacon_refuted.
