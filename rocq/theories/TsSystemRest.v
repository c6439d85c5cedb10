(** What a TypeScript producer and a TypeScript consumer have done for each other
    (TsSystemModel.v): whose answer an answer is, and what is left when nothing
    happens any more. *)
From Coq Require Import List NArith Arith Bool Lia.
From Verif Require Import Bytes WireModel FrameModel FrameProofs TsModel TsReader.
From Verif Require TsClientModel TsClientProofs TsClientTrace PropTsClient TsSystemOrder.
From Verif Require Import TsServerModel TsServerProofs TsServerTrace PropTsServer TsSystemModel TsSystemProofs.
Import ListNotations.
Open Scope N_scope.

Section Rest.
Variable QE : qenv.
Variable CE : TsClientModel.tenv.
Variable K : codec QE.
Variable OK : compatible QE CE K.
Variable u : N.
Variable o : nat.
Local Notation tev := (TsClientModel.tev (TsClientModel.t_msg CE)).
Local Notation qev := (qev (q_msg QE) (q_out QE)).
Local Notation tsys := (tsys QE CE).
Local Notation z_q := (z_q QE CE). Local Notation z_ql := (z_ql QE CE). Local Notation z_qt := (z_qt QE CE).
Local Notation z_c := (z_c QE CE). Local Notation z_cl := (z_cl QE CE). Local Notation z_ct := (z_ct QE CE).
Local Notation z_ups := (z_ups QE CE). Local Notation z_downs := (z_downs QE CE).
Local Notation z_lost := (z_lost QE CE). Local Notation z_app := (z_app QE CE).
Local Notation inv := (TsSystemProofs.inv QE CE K u o).
Local Notation patient := (patient CE).
Local Notation order := (TsSystemOrder.order CE).

(** ** A patient application *)

Lemma order_reach z0 z : fresh QE CE u o z0 -> reach QE CE K patient u z0 z -> order (z_c z) (z_ct z).
Proof.
  intros F R. induction R as [|z1 z2 R IH M].
  - destruct F as (ls & s & tr & _ & _ & _ & _ & _ & H1 & _ & H2 & _). rewrite H1, H2.
    apply TsSystemOrder.order_start; [intros []|reflexivity|reflexivity|intros v []].
  - destruct (inv_reach QE CE K patient u o z0 z1 F R) as (ups & downs & I).
    destruct M as [z l s' es lost qs AP FI PS|z n fuel s' es lost qs l LN FI PS|z n x lost qs PS|z l s' es qs OW PA FI UP|z n fuel s' es qs l LN FI UP];
      cbn [TsSystemModel.z_c TsSystemModel.z_ct]; try exact IH.
    + exact (TsSystemOrder.order_step CE _ _ _ _ _ _ (v_c _ _ _ _ _ _ _ _ I) FI (or_introl OW) PA IH).
    + eapply (TsSystemOrder.order_step CE _ _ _ _ _ _ (v_c _ _ _ _ _ _ _ _ I) FI); [right; exists (firstn n (z_downs z)), fuel; reflexivity|exact Logic.I|exact IH].
Qed.

Lemma of_call_deliver t an q : of_call QE CE K t an q -> exists w m,
  In (TsClientModel.VCall (fst an) w) t /\ declared QE K w /\ deliver (q_get QE) (q_sig QE) q = [(hdr q, m)] /\
  q_get QE (fst (z_msg _ K (fst an) w)) (snd (z_msg _ K (fst an) w)) = Ok m /\ h_seq (hdr q) = snd an mod 2 ^ 32.
Proof.
  intros (w & ts & HC & DC & ->). destruct (up_frame QE CE K OK (fst an) w (snd an) ts DC) as (_ & _ & m & G & D).
  exists w, m. auto 6.
Qed.

(** What the message of a promise is for the producer. *)
Definition kind_of (w : TsClientModel.what) (m : q_msg QE) : Prop :=
  match w with
  | TsClientModel.WAssign _ => q_self QE m = true /\ q_hash QE m = None /\ q_for QE m = None
  | TsClientModel.WHash _ => q_self QE m = false /\ q_hash QE m = Some (q_proto QE, q_work QE)
  | TsClientModel.WReq r _ => q_self QE m = false /\ q_hash QE m = None /\ q_for QE m = Some (true, r)
  | TsClientModel.WBeacon b _ => q_self QE m = false /\ q_hash QE m = None /\ q_for QE m = Some (false, b)
  end.

Lemma kind_up a w m : declared QE K w -> q_get QE (fst (z_msg _ K a w)) (snd (z_msg _ K a w)) = Ok m -> kind_of w m.
Proof.
  intros D G. destruct (z_up _ _ _ OK a w D) as (_ & _ & m' & G' & H). rewrite G in G'. injection G' as <-. exact H.
Qed.

Lemma ups_known z ups0 downs l ups : inv z ups0 downs -> Forall2 (of_call QE CE K (z_ct z)) l ups ->
  (forall x j, In (x, j) l -> exists w g, TsClientModel.c_act (z_c z) x = Some (w, g) /\ TsClientProofs.on w <> None) ->
  Forall (known QE) (flat_map (deliver (q_get QE) (q_sig QE)) ups).
Proof.
  intros I F. induction F as [|[x j] q l ups H F IH]; intro W; [constructor|]. cbn [flat_map].
  destruct (of_call_deliver _ _ _ H) as (w & m & HC & DC & D & G & _). rewrite D. cbn [fst app] in *. constructor.
  - destruct (call_act _ _ _ _ _ _ _ _ _ _ I HC) as (g & C). destruct (W x j (or_introl eq_refl)) as (w' & g' & C' & ON).
    rewrite C in C'. injection C' as <- <-. pose proof (kind_up _ _ _ DC G) as KD. unfold known. cbn [snd].
    destruct w; cbn [kind_of TsClientProofs.on] in *; try (elim ON; reflexivity); destruct KD as (_ & K1 & K2); rewrite K1, K2; split; congruence.
  - apply IH. intros x' j' HI. apply (W x' j'). right. exact HI.
Qed.

Lemma ups_compliant z ups downs : inv z ups downs -> order (z_c z) (z_ct z) ->
  compliant QE (flat_map (deliver (q_get QE) (q_sig QE)) ups).
Proof.
  intros I O. pose proof (v_ups _ _ _ _ _ _ _ _ I) as F.
  assert (ONE : forall x j q w g, of_call QE CE K (z_ct z) (x, j) q -> TsClientModel.c_act (z_c z) x = Some (w, g) ->
            exists m, deliver (q_get QE) (q_sig QE) q = [(hdr q, m)] /\ kind_of w m).
  { intros x j q w g H C. destruct (of_call_deliver _ _ _ H) as (w' & m & HC & DC & D & G & _). cbn [fst] in *.
    destruct (call_act _ _ _ _ _ _ _ _ _ _ I HC) as (g' & C'). rewrite C in C'. injection C' as <- <-.
    exists m. split; [exact D|]. eapply kind_up; eassumption. }
  destruct O as [H1 H2 H3 H4|a g H1 H2 H3 H4 H5|a b v g n H1 H0 H2 H3 H4 H5 H6|a b v n k rest H1 H0 H2 H3 H4 H5 HR H6].
  - rewrite H3 in F. inversion F. exact Logic.I.
  - destruct H5 as [(n & H5 & _)|(H5 & _)]; rewrite H5 in F; [|inversion F; exact Logic.I].
    inversion F as [|? q ? l' F1 F2]; subst. inversion F2; subst. destruct (ONE _ _ _ _ _ F1 H2) as (m & D & K1 & K2 & _).
    cbn [flat_map app]. rewrite D. cbn [app]. split; [exact K1|]. split; [exact K2|exact Logic.I].
  - destruct H6 as [(k & H6 & _)|(H6 & _)]; rewrite H6 in F; inversion F as [|? q ? l' F1 F2]; subst;
      destruct (ONE _ _ _ _ _ F1 H2) as (m & D & K1 & K2 & _); cbn [flat_map app]; rewrite D; cbn [app].
    + inversion F2 as [|? q' ? l'' F3 F4]; subst. inversion F4; subst. destruct (ONE _ _ _ _ _ F3 H3) as (m' & D' & K3 & K4).
      cbn [flat_map app]. rewrite D'. cbn [app]. split; [exact K1|]. split; [exact K2|]. split; [exact K3|]. split; [exact K4|constructor].
    + inversion F2; subst. split; [exact K1|]. split; [exact K2|exact Logic.I].
  - rewrite H5 in F. inversion F as [|? q ? l' F1 F2]; subst. inversion F2 as [|? q' ? l'' F3 F4]; subst.
    destruct (ONE _ _ _ _ _ F1 H2) as (m & D & K1 & K2 & _). destruct (ONE _ _ _ _ _ F3 H3) as (m' & D' & K3 & K4).
    cbn [flat_map app]. rewrite D, D'. cbn [app]. split; [exact K1|]. split; [exact K2|]. split; [exact K3|]. split; [exact K4|].
    eapply ups_known; [exact I|exact F4|exact H6].
Qed.

Lemma reads_compliant z ups downs : inv z ups downs -> order (z_c z) (z_ct z) ->
  blen (concat (chunks QE o (z_qt z))) < 2 ^ 64 -> compliant QE (reads QE o (z_qt z)).
Proof.
  intros I O L. destruct (server_reads QE CE K OK u o _ _ _ I L) as (j & left & E & _).
  apply (compliant_prefix QE _ left). rewrite E. apply (compliant_prefix QE _ (flat_map (deliver (q_get QE) (q_sig QE)) (skipn j ups))).
  rewrite <- flat_map_app, firstn_skipn. exact (ups_compliant _ _ _ I O).
Qed.

(** ** What becomes of a message that the producer takes from the queue *)

Lemma compliant_at l1 h m l2 : compliant QE (l1 ++ (h, m) :: l2) ->
  (l1 = [] /\ q_self QE m = true) \/ (length l1 = 1%nat /\ q_hash QE m = Some (q_proto QE, q_work QE)) \/
  ((2 <= length l1)%nat /\ known QE (h, m)).
Proof.
  destruct l1 as [|x1 [|x2 l1]]; cbn [app].
  - intros (H & _). auto.
  - destruct x1 as [h1 m1]. intros (_ & _ & _ & H & _). auto.
  - destruct x1 as [h1 m1], x2 as [h2 m2]. intros (_ & _ & _ & _ & H). right. right. split; [cbn [length]; lia|].
    apply Forall_app in H as (_ & H). inversion H; assumption.
Qed.

Lemma by_read s l s' e1 v h m e2 : fire QE s l = Some (s', e1 ++ ORead v h m :: e2) ->
  e1 = [] /\ exists c, p_obj s v = Some c /\ turn QE (p_tasks s) v c h m e2.
Proof.
  intro F. set (es := e1 ++ ORead v h m :: e2) in *.
  assert (IN : In (ORead v h m) es) by (apply in_app_iff; right; left; reflexivity).
  assert (NO : (forall e, In e es -> noio QE v e) -> False).
  { intro H. apply H in IN. cbn [noio] in IN. apply IN. reflexivity. }
  destruct (fire_emits QE _ _ _ _ F) as [(-> & v' & c & L & O & C)|[(t & j & c & _ & L & J & O & S & C)|[(w & -> & L & C)|
    [(w & -> & C)|[(w & data & fuel & -> & L & C)|[(w & -> & C)|[(w & -> & C)|[(w & -> & C)|(e & r & k & -> & H)]]]]]]]].
  - destruct C as [(_ & _ & C)|(h' & m' & q & es' & Q & C & T)]; [rewrite C in IN; elim IN|].
    destruct e1 as [|x e1].
    + unfold es in C. cbn [app] in C. injection C as <- <- <- <-. split; [reflexivity|]. exists c. auto.
    + exfalso. unfold es in C. cbn [app] in C. injection C as -> <-.
      assert (W : noio QE v (ORead v h m)) by (apply (turn_noio QE _ _ _ _ _ _ v T); apply in_app_iff; right; left; reflexivity).
      apply W. reflexivity.
  - exfalso. apply NO. intros e He. eapply tstep_noio; eassumption.
  - exfalso. apply NO. destruct C as [(_ & ->)|(_ & ->)]; intros e [<-|[]]; exact Logic.I.
  - exfalso. apply NO. destruct C as [(x & _ & ->)|(_ & ->)]; intros e [<-|[]]; exact Logic.I.
  - exfalso. destruct C as [(_ & C)|(v' & c & MV & O & [(_ & C)|(r & b & _ & _ & C)])].
    + apply NO. rewrite C. intros e He. eapply receiving_noio; exact He.
    + apply NO. rewrite C. intros e He. eapply receiving_noio; exact He.
    + rewrite C in IN. destruct IN as [IN|IN]; [discriminate IN|]. destruct r as [[|n]|]; try (elim IN; fail).
      apply (receiving_noio QE _ _ v) in IN. apply IN. reflexivity.
  - rewrite C in IN. destruct IN as [IN|[]]; discriminate IN.
  - rewrite C in IN. destruct IN as [IN|[]]; discriminate IN.
  - rewrite C in IN. destruct IN as [IN|[]]; discriminate IN.
  - destruct (H _ IN) as [W|(x & y & W)]; discriminate W.
Qed.

Lemma start_plain ls s tr t h m : qrun QE ls s tr -> In (OStart t o h m) tr -> q_hash QE m = None.
Proof.
  intros R IN. apply in_split in IN as (p & q & E).
  destruct (qrun_split QE _ _ _ R _ _ _ E) as (ls1 & s1 & tr1 & l & s2 & e1 & e2 & R1 & F & _).
  destruct (by_start QE _ _ _ _ _ _ _ _ _ F) as (c & -> & _ & _ & -> & -> & _).
  destruct (by_read _ _ _ [] _ _ _ _ F) as (_ & c' & _ & T). inversion T as [| | | | |kind Q1 Q2 Q3 Q4 EQ|Q1 Q2 Q3 Q4 EQ]; [exact Q1|].
  assert (W : In (OStart t o h m) (receiving_err QE (k_uuid c') (Some o))) by (rewrite EQ; left; reflexivity).
  apply in_receiving in W as [(W & _)|W]; discriminate W.
Qed.

(** In whatever state the producer takes a message of a compliant client. *)
Lemma read_state ls s tr p h m q : qrun QE ls s tr -> compliant QE (reads QE o tr) -> tr = p ++ ORead o h m :: q ->
  exists c nt es q', q = es ++ q' /\ turn QE nt o c h m es /\ flags QE p o c /\ In (OConnected (k_uuid c) o) tr /\
   ((q_self QE m = true /\ k_hash c = false) \/
    (q_hash QE m = Some (q_proto QE, q_work QE) /\ k_hash c = false /\ k_key c = true) \/
    (known QE (h, m) /\ k_hash c = true /\ k_key c = true)).
Proof.
  intros R CP E. destruct (qrun_split QE _ _ _ R _ _ _ E) as (ls1 & s1 & tr1 & l & s2 & e1 & e2 & R1 & F & P & q' & Q).
  destruct (by_read _ _ _ _ _ _ _ _ F) as (-> & c & O & T). rewrite app_nil_r in P. subst p.
  exists c, (p_tasks s1), e2, q'. split; [exact Q|]. split; [exact T|].
  pose proof (qrun_flags QE _ _ _ R1 o) as FL. rewrite O in FL. split; [exact FL|].
  split; [rewrite E; apply in_app_iff; left; exact (i_conn QE _ _ (qrun_inv QE _ _ _ R1) _ _ O)|].
  assert (RE : reads QE o tr = reads QE o tr1 ++ (h, m) :: reads QE o q).
  { rewrite E, reads_app. unfold reads at 2. cbn [flat_map]. rewrite Nat.eqb_refl. reflexivity. }
  rewrite RE in CP. pose proof (compliant_prefix QE _ _ CP) as CP1.
  destruct (compliant_greeted QE _ _ _ R1 o c O CP1) as (G1 & G2 & G3).
  destruct (compliant_at _ _ _ _ CP) as [(Z & H)|[(Z & H)|(Z & H)]].
  - left. split; [exact H|]. apply G1. rewrite Z. cbn [length]. lia.
  - right. left. split; [exact H|]. split; [apply G1; lia|apply G2; lia].
  - right. right. split; [exact H|]. split; [apply G3; lia|apply G2; lia].
Qed.

(** A message that was taken has been answered, if the handlers have come to their
    end and have not failed. *)
Lemma read_answered ls s tr h m : qrun QE ls s tr -> In (OConnected u o) tr -> compliant QE (reads QE o tr) ->
  In (ORead o h m) tr ->
  (forall t j, p_task s t = Some j -> j_obj j = o -> j_stage j = QDone) ->
  (forall t h' m', In (OStart t o h' m') tr -> ~ In (OFail t) tr) ->
  exists c p, In (OSend c u (h_seq h) p) tr.
Proof.
  intros R HC CP IN TD NF. pose proof (qrun_inv QE _ _ _ R) as IV.
  apply in_split in IN as (p & q & E). destruct (read_state _ _ _ _ _ _ _ R CP E) as (c & nt & es & q' & Q & T & FL & HK & W).
  assert (HT : forall e, In e es -> In e tr).
  { intros e He. rewrite E, Q. apply in_app_iff. right. right. apply in_app_iff. auto. }
  assert (UU : k_uuid c = u).
  { destruct (i_made QE _ _ IV _ _ HC) as (c1 & O1 & U1). destruct (i_made QE _ _ IV _ _ HK) as (c2 & O2 & U2). congruence. }
  rewrite UU in *.
  destruct T as [Q1 Q2|Q1 Q2|pw Q1 Q2 Q3|Q1 Q2 Q3|Q1 Q2 Q3|kind Q1 Q2 Q3 Q4|Q1 Q2 Q3 Q4].
  - exists ByLoop, (PSelf u). rewrite <- UU. apply HT. right. left. reflexivity.
  - exists ByLoop, (PHash true). rewrite <- UU. apply HT. left. reflexivity.
  - exists ByLoop, (PHash false). rewrite <- UU. apply HT. left. reflexivity.
  - exfalso. destruct W as [(W & _)|[(W & _)|(_ & W & _)]]; congruence.
  - exfalso. destruct W as [(_ & W)|[(_ & W & _)|(_ & _ & W)]]; congruence.
  - assert (ST : In (OStart nt o h m) tr) by (apply HT; left; reflexivity).
    destruct (C92_ended_handlers_partial QE _ _ _ _ _ _ _ R ST) as [W'|(AN & _)].
    + intros j J. apply (TD _ _ J). destruct (task_of QE _ _ _ nt _ R ST (Nat.eqb_refl nt)) as (j' & k' & J' & O' & SH).
      rewrite J in J'. injection J' as <-. destruct (shape_form QE _ _ _ _ SH) as (h' & m' & r' & _ & _ & LF & NS & _).
      apply (in_life QE nt) in ST; [|apply Nat.eqb_refl]. rewrite LF in ST. destruct ST as [ST|ST]; [injection ST; auto|elim (NS _ _ _ ST)].
    + elim (NF _ _ _ ST W').
    + unfold answers in AN. destruct (filter _ tr) as [|e l] eqn:FI; [discriminate AN|].
      assert (IN : In e (e :: l)) by (left; reflexivity). rewrite <- FI in IN. apply filter_In in IN as (IN & EQ).
      destruct e; try discriminate EQ. destruct c0 as [|t]; [discriminate EQ|]. apply Nat.eqb_eq in EQ as ->.
      exists (ByTask nt), p0. pose proof IN as IN'. apply in_split in IN' as (p1 & p2 & SP).
      destruct (C87_own_number QE _ _ _ _ _ _ _ _ _ R SP) as (o2 & h2 & m2 & S2 & C2 & N2 & _).
      assert (S3 : In (OStart nt o2 h2 m2) tr) by (rewrite SP; apply in_app_iff; auto).
      assert (EQ : o2 = o /\ h2 = h).
      { destruct (C87_answered_once QE _ _ _ _ _ _ _ R ST) as (ON & _). pose proof ST as ST'. apply in_split in ST' as (x1 & x2 & SX).
        destruct (ON _ _ SX o2 h2 m2) as (N1 & N3). rewrite SX in S3. apply in_app_iff in S3 as [S3|[S3|S3]]; [elim (N1 S3)| |elim (N3 S3)].
        injection S3. auto. }
      destruct EQ as (-> & ->).
      assert (u0 = u) as <-.
      { assert (C3 : In (OConnected u0 o) tr) by (rewrite SP; apply in_app_iff; auto).
        destruct (i_made QE _ _ IV _ _ HC) as (c1 & O1 & U1). destruct (i_made QE _ _ IV _ _ C3) as (c2 & O2 & U2). congruence. }
      rewrite N2. exact IN.
  - exfalso. destruct W as [(_ & W)|[(W & _)|((W & _) & _)]]; cbn [snd] in *; congruence.
Qed.

(** ** At rest *)

Definition resting (z : tsys) : Prop :=
  z_ups z = [] /\ z_downs z = [] /\ p_loop (z_q z) <> Some o /\
  (forall t j, p_task (z_q z) t = Some j -> j_obj j = o -> j_stage j = QDone) /\
  PropTsClient.at_rest CE (z_c z).

Lemma all_read z ups downs : inv z ups downs -> order (z_c z) (z_ct z) ->
  blen (concat (chunks QE o (z_qt z))) < 2 ^ 64 -> ~ In (ODiscredit o) (z_qt z) -> resting z ->
  reads QE o (z_qt z) = flat_map (deliver (q_get QE) (q_sig QE)) ups.
Proof.
  intros I OD L ND (ZU & _ & LP & _). pose proof (v_q _ _ _ _ _ _ _ _ I) as R.
  destruct (server_reads QE CE K OK u o _ _ _ I L) as (j & left & E & _ & LQ & ALL & OS).
  rewrite (ALL ND ZU) in E. destruct (i_made QE _ _ (qrun_inv QE _ _ _ R) _ _ (v_o _ _ _ _ _ _ _ _ I)) as (c & O & _).
  rewrite (LQ c O) in E. pose proof (qrun_fed QE _ _ _ R o) as FD. unfold fed in FD. rewrite O in FD. destruct FD as (_ & FD).
  destruct (rb_queue (k_buf c)) as [|x r]; [rewrite app_nil_r in E; exact E|]. exfalso.
  destruct (FD LP) as [(os & x' & E1 & NE)|(p & h & m & q & E1 & H1 & H2 & H3)]; [discriminate| |].
  - rewrite E1 in OS. apply Forall_app in OS as (_ & OS). inversion OS as [|? ? W]. elim NE. symmetry. exact W.
  - destruct (read_state _ _ _ _ _ _ _ R (reads_compliant _ _ _ I OD L) E1) as (c1 & nt & es & q' & _ & _ & FL & _ & W).
    apply (f_hash QE _ _ _ FL) in H3. destruct W as [(_ & W)|[(_ & W & _)|((W & _) & _)]]; cbn [snd] in *; congruence.
Qed.

Lemma all_answered z ups downs a n : inv z ups downs -> order (z_c z) (z_ct z) ->
  blen (concat (chunks QE o (z_qt z))) < 2 ^ 64 -> blen (concat (TsClientTrace.chunks CE (z_ct z))) < 2 ^ 64 ->
  ~ In (ODiscredit o) (z_qt z) -> (forall t h' m', In (OStart t o h' m') (z_qt z) -> ~ In (OFail t) (z_qt z)) ->
  z_lost z = [] -> resting z -> In (TsClientModel.VNum a n TsClientModel.SOk) (z_ct z) ->
  exists h m, In (TsClientModel.VRead h m) (z_ct z) /\ h_seq h = n.
Proof.
  intros I OD L L' ND NF ZL RS IN. pose proof (all_read _ _ _ I OD L ND RS) as AR.
  destruct (num_small QE CE K u o _ _ _ _ _ _ I IN eq_refl) as (NS & NZ).
  assert (RD : exists h m, In (ORead o h m) (z_qt z) /\ h_seq h = n).
  { apply (in_sent_up CE) in IN. pose proof (v_ups _ _ _ _ _ _ _ _ I) as F.
    assert (W : exists q, In q ups /\ of_call QE CE K (z_ct z) (a, n) q).
    { clear - F IN. induction F as [|an q l l' H F IH]; [elim IN|]. destruct IN as [->|IN]; [exists q; split; [left; reflexivity|exact H]|].
      destruct (IH IN) as (q' & H1 & H2). exists q'. split; [right; exact H1|exact H2]. }
    destruct W as (q & HQ & W). destruct (of_call_deliver _ _ _ W) as (w & m & _ & _ & D & _ & SQ). cbn [snd] in SQ.
    exists (hdr q), m. split; [|rewrite SQ; exact NS].
    assert (R : In (hdr q, m) (reads QE o (z_qt z))).
    { rewrite AR. apply in_flat_map. exists q. split; [exact HQ|]. rewrite D. left. reflexivity. }
    unfold reads in R. apply in_flat_map in R as (e & He & R). destruct e; try (elim R; fail).
    destruct (Nat.eqb_spec o0 o) as [->|]; [|elim R]. destruct R as [R|[]]. injection R as <- <-. exact He. }
  destruct RD as (h & m & RD & HN). destruct RS as (_ & ZD & _ & TD & AT).
  destruct (read_answered _ _ _ _ _ (v_q _ _ _ _ _ _ _ _ I) (v_o _ _ _ _ _ _ _ _ I) (reads_compliant _ _ _ I OD L) RD TD NF) as (c & p & S).
  rewrite HN in S. apply (handed_in QE u) in S. destruct (v_passed _ _ _ _ _ _ _ _ I n p NZ S) as [W|(ts & W)]; [rewrite ZL in W; elim W|].
  destruct (client_reads QE CE K OK u o _ _ _ I L') as (j & E & EQ & ALL). rewrite (EQ (proj1 AT)), app_nil_r, (ALL ZD) in E.
  destruct (down_frame QE CE K OK p n ts) as (_ & _ & m' & _ & D).
  exists (hdr (frame (q_sig QE) (z_pay QE K p) n ts)), m'. split; [|exact NS].
  assert (R : In (hdr (frame (q_sig QE) (z_pay QE K p) n ts), m') (TsClientTrace.reads CE (z_ct z))).
  { rewrite E. apply in_flat_map. eexists. split; [exact W|]. rewrite D. left. reflexivity. }
  unfold TsClientTrace.reads in R. apply in_flat_map in R as (e & He & R). destruct e; try (elim R; fail).
  destruct R as [R|[]]. injection R as <- <-. exact He.
Qed.

(** ** Whose answer an answer is *)

Definition not_app (n : N) (z : tsys) : Prop := forall k x, In (k, x) (z_app z) -> k mod 2 ^ 32 <> n.

(** What the producer has made of message [m'] of a promise that is for [w]. *)
Definition made (z : tsys) (w : TsClientModel.what) (h : header) (m' : q_msg QE) (c : source) (p : qpay (q_out QE)) : Prop :=
  match w with
  | TsClientModel.WAssign _ => c = ByLoop /\ p = PSelf u
  | TsClientModel.WHash _ => c = ByLoop /\ p = PHash true
  | TsClientModel.WReq r _ => exists t y bs, c = ByTask t /\ p = PAnswer y /\ q_for QE m' = Some (true, r) /\
      In (OStart t o h m') (z_qt z) /\ In (OResult t y bs) (z_qt z)
  | TsClientModel.WBeacon b _ => exists t, c = ByTask t /\ p = PConfirm /\ q_for QE m' = Some (false, b) /\
      In (OStart t o h m') (z_qt z)
  end.

Lemma read_own z ups downs h m : inv z ups downs ->
  blen (concat (chunks QE o (z_qt z))) < 2 ^ 64 -> blen (concat (TsClientTrace.chunks CE (z_ct z))) < 2 ^ 64 ->
  In (TsClientModel.VRead h m) (z_ct z) -> h_seq h <> 0 -> not_app (h_seq h) z ->
  exists a w h' m' c p, In (TsClientModel.VCall a w) (z_ct z) /\ In (TsClientModel.VNum a (h_seq h) TsClientModel.SOk) (z_ct z) /\
    In (ORead o h' m') (z_qt z) /\ h_seq h' = h_seq h /\ q_get QE (fst (z_msg _ K a w)) (snd (z_msg _ K a w)) = Ok m' /\
    In (OSend c u (h_seq h) p) (z_qt z) /\ TsClientModel.t_get CE (fst (z_pay _ K p)) (snd (z_pay _ K p)) = Ok m /\
    made z w h' m' c p.
Proof.
  intros I L L' IN NZ NA. destruct (read_down QE CE K OK u o _ _ _ _ _ I L' IN) as (n & p & HN & G & W).
  destruct W as [(c & W)|[->|(x & -> & W)]].
  - destruct (send_up QE CE K OK u o _ _ _ _ _ _ I L W) as (a & w & h' & m' & HC & HM & RD & HS & DC & GU & KD).
    destruct (num_small QE CE K u o _ _ _ _ _ _ I HM eq_refl) as (NS & _). rewrite NS in HN. rewrite HN.
    exists a, w, h', m', c, p. do 7 (split; [assumption|]). pose proof (kind_up _ _ _ DC GU) as KU.
    unfold made. destruct c as [|t].
    + destruct p as [v|b| |]; try (elim KD; fail).
      * destruct KD as (-> & KD). destruct w; cbn [kind_of] in KU; try (destruct KU as (KU & _); congruence). auto.
      * destruct KD as (KD & KE). destruct w; cbn [kind_of] in KU; try (destruct KU as (_ & KU & _); congruence).
        split; [reflexivity|]. f_equal. apply KE. exact (proj2 KU).
    + destruct KD as (ST & KD). destruct p as [v|b|y|]; try (elim KD; fail).
      * destruct KD as (r & bs & KD & OR). destruct w; cbn [kind_of] in KU; try (destruct KU as (_ & _ & KU); congruence).
        -- exfalso. pose proof (start_plain _ _ _ _ _ _ (v_q _ _ _ _ _ _ _ _ I) ST). destruct KU as (_ & KU). congruence.
        -- destruct KU as (_ & _ & KU). exists t, y, bs. auto 8.
      * destruct KD as (r & KD). destruct w; cbn [kind_of] in KU; try (destruct KU as (_ & _ & KU); congruence).
        -- exfalso. pose proof (start_plain _ _ _ _ _ _ (v_q _ _ _ _ _ _ _ _ I) ST). destruct KU as (_ & KU). congruence.
        -- destruct KU as (_ & _ & KU). exists t. auto 8.
  - rewrite HN in NZ. elim NZ. reflexivity.
  - elim (NA _ _ W). symmetry. exact HN.
Qed.
End Rest.
