(** Proofs about a TypeScript producer and a TypeScript consumer connected by a
    transport (TsSystemModel.v). *)
From Coq Require Import List NArith Arith Bool Lia.
From Verif Require Import Bytes WireModel FrameModel FrameProofs TsModel TsReader.
From Verif Require TsClientModel TsClientProofs TsClientTrace PropTsClient.
From Verif Require Import TsServerModel TsServerProofs TsServerTrace PropTsServer TsSystemModel.
Import ListNotations.
Open Scope N_scope.

Section Proofs.
Variable QE : qenv.
Variable CE : TsClientModel.tenv.
Variable K : codec QE.
Variable OK : compatible QE CE K.
Variable A : list (TsClientModel.tev (TsClientModel.t_msg CE)) -> TsClientModel.label -> Prop.
Variable u : N.
Variable o : nat.
Local Notation tev := (TsClientModel.tev (TsClientModel.t_msg CE)).
Local Notation qev := (qev (q_msg QE) (q_out QE)).
Local Notation tsys := (tsys QE CE).
Local Notation z_q := (z_q QE CE). Local Notation z_ql := (z_ql QE CE). Local Notation z_qt := (z_qt QE CE).
Local Notation z_c := (z_c QE CE). Local Notation z_cl := (z_cl QE CE). Local Notation z_ct := (z_ct QE CE).
Local Notation z_ups := (z_ups QE CE). Local Notation z_downs := (z_downs QE CE).
Local Notation z_lost := (z_lost QE CE). Local Notation z_app := (z_app QE CE).

Lemma stream_app a b : stream (a ++ b) = stream a ++ stream b.
Proof. apply flat_map_app. Qed.

Lemma Forall2_weaken {X Y} (P Q : X -> Y -> Prop) l l' : (forall x y, P x y -> Q x y) -> Forall2 P l l' -> Forall2 Q l l'.
Proof. intros H F. induction F; constructor; auto. Qed.

(** ** Packets *)

Definition of_call (t : list tev) (an : nat * N) (q : packet) : Prop :=
  exists w ts, In (TsClientModel.VCall (fst an) w) t /\ declared QE K w /\
    q = frame (TsClientModel.t_sig CE) (z_msg _ K (fst an) w) (snd an) ts.

Lemma of_call_more t t' an q : of_call t an q -> of_call (t ++ t') an q.
Proof. intros (w & ts & H & Q). exists w, ts. split; [apply in_app_iff; auto|exact Q]. Qed.
Lemma of_call_more' t t' an q : of_call t an q -> of_call (t' ++ t) an q.
Proof. intros (w & ts & H & Q). exists w, ts. split; [apply in_app_iff; auto|exact Q]. Qed.

Definition of_pay (l : list (N * qpay (q_out QE))) (l' : list (N * q_out QE)) (q : packet) : Prop :=
  exists n p ts, q = frame (q_sig QE) (z_pay _ K p) n ts /\
    (In (n, p) l \/ exists x, p = PAnswer x /\ In (n, x) l').

Lemma passed_of ms lost qs : passed QE K ms lost qs ->
  (forall q, In q qs -> exists n p ts, q = frame (q_sig QE) (z_pay _ K p) n ts /\ In (n, p) ms) /\
  (forall n p, In (n, p) ms -> In (n, p) lost \/ exists ts, In (frame (q_sig QE) (z_pay _ K p) n ts) qs).
Proof.
  induction 1 as [|n p ts ms lost qs H (I1 & I2)|n p ms lost qs H (I1 & I2)].
  - split; [intros q []|intros n p []].
  - split.
    + intros q [<-|HQ]; [exists n, p, ts; split; [reflexivity|left; reflexivity]|].
      destruct (I1 q HQ) as (n' & p' & ts' & Q & IN). exists n', p', ts'. split; [exact Q|right; exact IN].
    + intros n' p' [Q|HQ]; [injection Q as <- <-; right; exists ts; left; reflexivity|].
      destruct (I2 _ _ HQ) as [L|(ts' & L)]; [auto|]. right. exists ts'. right. exact L.
  - split.
    + intros q HQ. destruct (I1 q HQ) as (n' & p' & ts' & Q & IN). exists n', p', ts'. split; [exact Q|right; exact IN].
    + intros n' p' [Q|HQ]; [left; left; exact Q|].
      destruct (I2 _ _ HQ) as [L|L]; [left; right; exact L|right; exact L].
Qed.

Lemma handed_app a b : handed QE u (a ++ b) = handed QE u a ++ handed QE u b.
Proof. apply flat_map_app. Qed.
Lemma in_handed n p t : In (n, p) (handed QE u t) ->
  (exists c, In (OSend c u n p) t) \/ (n = 0 /\ exists c x, p = PAnswer x /\ In (OBroad c u x) t).
Proof.
  unfold handed. intro H. apply in_flat_map in H as (e & He & H). destruct e; try (elim H; fail);
    destruct (N.eqb_spec u0 u) as [->|]; try (elim H; fail); destruct H as [H|[]]; injection H as <- <-; [left; eauto|right].
  split; [reflexivity|]. eauto.
Qed.
Lemma handed_in c n p t : In (OSend c u n p) t -> In (n, p) (handed QE u t).
Proof.
  intro H. apply in_flat_map. exists (OSend c u n p). split; [exact H|]. rewrite N.eqb_refl. left. reflexivity.
Qed.

(** ** The invariant *)

Record inv (z : tsys) (ups downs : list packet) : Prop := mkZinv {
  v_q : qrun QE (z_ql z) (z_q z) (z_qt z);
  v_c : TsClientModel.trun CE (z_cl z) (z_c z) (z_ct z);
  v_o : In (OConnected u o) (z_qt z);
  v_only : forall v, In (OConnected u v) (z_qt z) -> v = o;
  v_map : p_map (z_q z) u = Some o;
  v_up : exists rest, concat (chunks QE o (z_qt z)) ++ rest = stream ups /\
           (~ In (ODiscredit o) (z_qt z) -> rest = z_ups z);
  v_ups : Forall2 (of_call (z_ct z)) (sent_up CE (z_ct z)) ups;
  v_down : concat (TsClientTrace.chunks CE (z_ct z)) ++ z_downs z = stream downs;
  v_downs : Forall (of_pay (handed QE u (z_qt z)) (z_app z)) downs;
  v_passed : forall n p, n <> 0 -> In (n, p) (handed QE u (z_qt z)) ->
    In (n, p) (z_lost z) \/ exists ts, In (frame (q_sig QE) (z_pay _ K p) n ts) downs
}.

Lemma chunks_other s tr l s' es : TsServerProofs.inv QE s tr -> fire QE s l = Some (s', es) ->
  p_map s u = Some o -> apart QE u l -> chunks QE o es = [].
Proof.
  intros I F MU AP. destruct (i_map _ _ _ I _ _ MU) as (c0 & O0 & U0).
  assert (G : (forall e, In e es -> noio QE o e) -> chunks QE o es = []).
  { intro H. exact (proj1 (noio_nil QE o es H)). }
  destruct (fire_emits QE _ _ _ _ F) as [(-> & o' & c & L & O & C)|[(t & j & c & _ & L & J & O & S & C)|[(v & -> & L & C)|
    [(v & -> & C)|[(v & data & fuel & -> & L & C)|[(v & -> & ->)|[(v & -> & ->)|[(v & -> & ->)|(e & r & k & -> & H)]]]]]]]].
  - destruct C as [(_ & _ & ->)|(h & m & q & es' & _ & -> & T)]; [reflexivity|].
    unfold chunks. cbn [flat_map app]. exact (proj1 (noio_nil QE o es' (turn_noio QE _ _ _ _ _ _ o T))).
  - apply G. intros e He. eapply tstep_noio; eassumption.
  - destruct C as [(_ & ->)|(_ & ->)]; reflexivity.
  - destruct C as [(w & _ & ->)|(_ & ->)]; reflexivity.
  - cbn [apart] in AP. destruct C as [(_ & ->)|(o' & c & MV & O & C)].
    { apply G. intros e He. eapply receiving_noio; exact He. }
    destruct C as [(_ & ->)|(r & b & _ & _ & ->)].
    { apply G. intros e He. eapply receiving_noio; exact He. }
    assert (NE : o' <> o).
    { intros ->. destruct (i_map _ _ _ I _ _ MV) as (c1 & O1 & U1). congruence. }
    apply G. intros e [<-|He]; [exact NE|]. destruct r as [[|n]|]; try (elim He; fail). eapply receiving_noio; exact He.
  - reflexivity.
  - reflexivity.
  - reflexivity.
  - apply G. intros x Hx. destruct (H x Hx) as [->|(w & y & ->)]; exact Logic.I.
Qed.

Lemma map_apart s l s' es : fire QE s l = Some (s', es) -> p_map s u = Some o -> 
  match l with LDisconnected v => v <> u | _ => True end -> p_map s' u = Some o.
Proof.
  intros F MU AP. destruct l; cbn [fire] in F; cbn beta iota in AP.
  - destruct (p_loop s); [discriminate F|]. destruct (p_map s u0) eqn:MV; injection F as <- <-; [exact MU|].
    cbn [p_map]. unfold updk. destruct (N.eqb_spec u u0) as [->|]; [congruence|exact MU].
  - destruct (p_map s u0) eqn:MV; injection F as <- <-; [|exact MU]. cbn [p_map]. unfold updk.
    destruct (N.eqb_spec u u0) as [->|]; [elim AP; reflexivity|exact MU].
  - destruct (p_loop s); [discriminate F|]. destruct (p_map s u0) as [o'|]; [|injection F as <- <-; exact MU].
    destruct (p_obj s o') as [c|]; [|discriminate F]. destruct (k_disc c); [injection F as <- <-; exact MU|].
    destruct (ts_chunk _ _ _ _ _) as [[r b]|]; [|discriminate F]. destruct r as [[|n]|]; injection F as <- <-; exact MU.
  - destruct (p_loop s) as [o'|] eqn:L; [|discriminate F]. destruct (p_obj s o') as [c|] eqn:O; [|discriminate F].
    destruct (rb_queue (k_buf c)) as [|[h m] q] eqn:Q; [injection F as <- <-; exact MU|].
    assert (F' : fire QE s LNext = Some (s', es)) by (cbn [fire]; rewrite L, O, Q; exact F).
    destruct (next_state QE _ _ _ _ _ _ _ _ F' L O Q) as (_ & MP & _). rewrite MP. exact MU.
  - destruct (p_obj s o0); [|discriminate F]. injection F as <- <-. exact MU.
  - destruct (p_obj s o0); [|discriminate F]. injection F as <- <-. exact MU.
  - destruct (p_obj s o0); [|discriminate F]. injection F as <- <-. exact MU.
  - assert (S := task_state QE s t (LEnd t r) s' es eq_refl F). destruct S as (-> & _). exact MU.
  - assert (S := task_state QE s t (LSent t ok k) s' es eq_refl F). destruct S as (-> & _). exact MU.
  - assert (S := task_state QE s t (LLast t ok) s' es eq_refl F). destruct S as (-> & _). exact MU.
  - apply event_state in F as ->. exact MU.
Qed.

(** Nothing but [LConnected] reports a connection. *)
Lemma only_more ls s tr l s' es : qrun QE ls s tr -> fire QE s l = Some (s', es) -> p_map s u = Some o ->
  forall v, ~ In (OConnected u v) es.
Proof.
  intros R F MU v W. apply in_split in W as (e1 & e2 & W). subst es.
  destruct (by_connected QE _ _ _ _ _ _ _ F) as (_ & MV & _). congruence.
Qed.

Lemma apart_disc l : apart QE u l -> match l with LDisconnected v => v <> u | _ => True end.
Proof. destruct l; cbn [apart]; auto. Qed.

Lemma v_up_other z ups es l s' : qrun QE (z_ql z) (z_q z) (z_qt z) -> p_map (z_q z) u = Some o ->
  fire QE (z_q z) l = Some (s', es) -> apart QE u l ->
  (exists rest, concat (chunks QE o (z_qt z)) ++ rest = stream ups /\ (~ In (ODiscredit o) (z_qt z) -> rest = z_ups z)) ->
  exists rest, concat (chunks QE o (z_qt z ++ es)) ++ rest = stream ups /\ (~ In (ODiscredit o) (z_qt z ++ es) -> rest = z_ups z).
Proof.
  intros R MU F AP (rest & H1 & H2). exists rest. rewrite chunks_app, (chunks_other _ _ _ _ _ (qrun_inv QE _ _ _ R) F MU AP), app_nil_r.
  split; [exact H1|]. intro ND. apply H2. intro W. apply ND. apply in_app_iff. auto.
Qed.

Lemma inv_fresh z : fresh QE CE u o z -> inv z [] [].
Proof.
  intros (ls & s & tr & R & NC & F & HL & HT & HC & HCL & HCT & HU & HD & HLO & HA).
  assert (R' : qrun QE (z_ql z) (z_q z) (z_qt z)) by (rewrite HL, HT; econstructor; eassumption).
  destruct (by_connected QE s (LConnected u) (z_q z) [] u o [] F) as (_ & MU & Q).
  split.
  - exact R'.
  - rewrite HC, HCL, HCT. constructor.
  - rewrite HT. apply in_app_iff. right. left. reflexivity.
  - rewrite HT. intros v W. apply in_app_iff in W as [W|[W|[]]]; [elim (NC _ W)|injection W as ->; reflexivity].
  - cbn [fire] in F. destruct (p_loop s); [discriminate F|]. rewrite MU in F. injection F as F Q'.
    rewrite <- F, <- Q'. cbn [p_map]. unfold updk. rewrite N.eqb_refl. reflexivity.
  - exists []. rewrite HT, chunks_app. cbn [chunks flat_map]. rewrite app_nil_r.
    assert (CH : chunks QE o tr = []).
    { pose proof (qrun_fed QE _ _ _ R o) as FD. unfold fed in FD.
      rewrite (i_fresh QE _ _ (qrun_inv QE _ _ _ R)) in FD by (rewrite Q; apply le_n). tauto. }
    rewrite CH, HU. split; [reflexivity|auto].
  - rewrite HCT. constructor.
  - rewrite HCT, HD. reflexivity.
  - constructor.
  - rewrite HT, handed_app. intros n p N0 IN. apply in_app_iff in IN as [IN|IN]; [|elim IN].
    apply in_handed in IN as [(c & IN)|(-> & _)]; [|elim (N0 eq_refl)].
    apply in_split in IN as (p1 & p2 & IN).
    pose proof (C87_own_number QE _ _ _ _ _ _ _ _ _ R IN) as W. exfalso. destruct c as [|t].
    + destruct W as (o' & h & m & p' & W & IC & _). apply (NC o'). rewrite IN. apply in_app_iff. left.
      destruct W as [-> | ->]; apply in_app_iff; auto.
    + destruct W as (o' & h & m & _ & IC & _). apply (NC o'). rewrite IN. apply in_app_iff. auto.
Qed.

Lemma downs_more l l' l2 l2' qs : (forall x, In x l -> In x l2) -> (forall x, In x l' -> In x l2') ->
  Forall (of_pay l l') qs -> Forall (of_pay l2 l2') qs.
Proof.
  intros H H'. apply Forall_impl. intros q (n & p & ts & Q & D). exists n, p, ts. split; [exact Q|].
  destruct D as [D|(x & E & D)]; [auto|]. right. exists x. auto.
Qed.

Lemma sent_up_app a b : sent_up CE (a ++ b) = sent_up CE a ++ sent_up CE b.
Proof. apply flat_map_app. Qed.

(** A step of the producer. *)
Lemma inv_server z ups downs l s' es lost qs zu : inv z ups downs ->
  match l with LDisconnected v => v <> u | LConnected v => v <> u | _ => True end ->
  fire QE (z_q z) l = Some (s', es) -> passed QE K (handed QE u es) lost qs ->
  (exists rest, concat (chunks QE o (z_qt z ++ es)) ++ rest = stream ups /\ (~ In (ODiscredit o) (z_qt z ++ es) -> rest = zu)) ->
  inv (mkTsys QE CE s' (z_ql z ++ [l]) (z_qt z ++ es) (z_c z) (z_cl z) (z_ct z) zu (z_downs z ++ stream qs) (z_lost z ++ lost) (z_app z))
      ups (downs ++ qs).
Proof.
  intros I AP F P UP. destruct (passed_of _ _ _ P) as (P1 & P2).
  split; cbn [TsSystemModel.z_q TsSystemModel.z_ql TsSystemModel.z_qt TsSystemModel.z_c TsSystemModel.z_cl TsSystemModel.z_ct
    TsSystemModel.z_ups TsSystemModel.z_downs TsSystemModel.z_lost TsSystemModel.z_app].
  - econstructor; [exact (v_q _ _ _ I)|exact F].
  - exact (v_c _ _ _ I).
  - apply in_app_iff. left. exact (v_o _ _ _ I).
  - intros v W. apply in_app_iff in W as [W|W]; [exact (v_only _ _ _ I v W)|].
    elim (only_more _ _ _ _ _ _ (v_q _ _ _ I) F (v_map _ _ _ I) v W).
  - apply (map_apart _ _ _ _ F (v_map _ _ _ I)). destruct l; auto.
  - exact UP.
  - exact (v_ups _ _ _ I).
  - rewrite app_assoc, (v_down _ _ _ I), stream_app. reflexivity.
  - apply Forall_app. split.
    + eapply downs_more; [| |exact (v_downs _ _ _ I)]; [|auto]. intros x W. rewrite handed_app. apply in_app_iff. auto.
    + apply Forall_forall. intros q HQ. destruct (P1 q HQ) as (n & p & ts & Q & IN). exists n, p, ts. split; [exact Q|].
      left. rewrite handed_app. apply in_app_iff. auto.
  - intros n p N0 IN. rewrite handed_app in IN. apply in_app_iff in IN as [IN|IN].
    + destruct (v_passed _ _ _ I n p N0 IN) as [W|(ts & W)]; [left; apply in_app_iff; auto|].
      right. exists ts. apply in_app_iff. auto.
    + destruct (P2 n p IN) as [W|(ts & W)]; [left; apply in_app_iff; auto|]. right. exists ts. apply in_app_iff. auto.
Qed.

(** A step of the consumer. *)
Lemma inv_client z ups downs l s' es qs zd : inv z ups downs ->
  TsClientModel.fire CE (z_c z) l = Some (s', es) -> up_packets QE CE K es qs ->
  concat (TsClientTrace.chunks CE (z_ct z ++ es)) ++ zd = stream downs ->
  inv (mkTsys QE CE (z_q z) (z_ql z) (z_qt z) s' (z_cl z ++ [l]) (z_ct z ++ es) (z_ups z ++ stream qs) zd (z_lost z) (z_app z))
      (ups ++ qs) downs.
Proof.
  intros I F P DN.
  split; cbn [TsSystemModel.z_q TsSystemModel.z_ql TsSystemModel.z_qt TsSystemModel.z_c TsSystemModel.z_cl TsSystemModel.z_ct
    TsSystemModel.z_ups TsSystemModel.z_downs TsSystemModel.z_lost TsSystemModel.z_app]; try (apply I).
  - econstructor; [exact (v_c _ _ _ I)|exact F].
  - destruct (v_up _ _ _ I) as (rest & H1 & H2). exists (rest ++ stream qs). rewrite app_assoc, H1, stream_app.
    split; [reflexivity|]. intro ND. rewrite (H2 ND). reflexivity.
  - rewrite sent_up_app. apply Forall2_app.
    + eapply Forall2_weaken; [|exact (v_ups _ _ _ I)]. intros x q. apply of_call_more.
    + eapply Forall2_weaken; [|exact P]. intros x q. apply of_call_more'.
  - exact DN.
Qed.

Lemma chunks_client s l s' es : TsClientModel.fire CE s l = Some (s', es) ->
  TsClientTrace.chunks CE es = match l with TsClientModel.LData d _ => [d] | _ => [] end.
Proof.
  intro F. 
  assert (CA : forall cs, (forall e, In e cs -> TsClientTrace.calling CE e) -> TsClientTrace.chunks CE cs = []).
  { induction cs as [|e cs IH]; intro H; [reflexivity|]. unfold TsClientTrace.chunks. cbn [flat_map].
    pose proof (H e (or_introl eq_refl)) as He. destruct e; try (elim He; fail); apply IH; intros x Hx; apply H; right; exact Hx. }
  destruct (TsClientTrace.fire_emits CE _ _ _ _ F) as [(fa & fw & fr & fs & Hl & cs & Hes & Hc & Hb & Hs)|
    [(fa & fw & fn & fm & -> & Ha & Hr)|[(fh & fm & fq & -> & Hd & Hq & Hb & Hx)|[(-> & Hq & -> & Hs)|
    [(data & fuel & fo & fb & -> & Hd & Ht & Hs & ->)|[(-> & ->)|[(-> & ->)|(fo & -> & ->)]]]]]]]; try reflexivity.
  - replace (match l with TsClientModel.LData d _ => [d] | _ => [] end) with (@nil bytes)
      by (destruct Hl as [->|[->|[->|(b & ->)]]]; reflexivity).
    destruct Hes as [-> | ->]; [apply CA; exact Hc|]. unfold TsClientTrace.chunks. rewrite flat_map_app. fold (TsClientTrace.chunks CE cs).
    rewrite (CA cs Hc). reflexivity.
  - apply TsClientTrace.resume_emits in Hr as [->|[(r & ->)|(w & _ & _ & ->)]]; reflexivity.
  - destruct Hx as [(a & _ & ->)|(_ & ->)]; [reflexivity|]. destruct (TsClientModel.t_broadcast CE fm); reflexivity.
Qed.

Lemma inv_move z z' ups downs : inv z ups downs -> move QE CE K A u z z' ->
  exists qs qs', inv z' (ups ++ qs) (downs ++ qs').
Proof.
  intros I M. destruct M as [z l s' es lost qs AP F P|z n fuel s' es lost qs l0 L F P|z n x lost qs P|z l s' es qs OW AL F P|z n fuel s' es qs l0 L F P].
  - exists [], qs. rewrite app_nil_r. apply inv_server; auto.
    + destruct l; cbn [apart] in AP; auto.
    + exact (v_up_other z ups es l s' (v_q _ _ _ I) (v_map _ _ _ I) F AP (v_up _ _ _ I)).
  - exists [], qs. rewrite app_nil_r. subst l0. apply inv_server; auto.
    destruct (v_up _ _ _ I) as (rest & H1 & H2).
    destruct (fire_emits QE _ _ _ _ F) as [(C & _)|[(t & j & c & C & _)|[(v & C & _)|
      [(v & C & _)|[(v & data & fu & C0 & LO & C)|[(v & C & _)|[(v & C & _)|[(v & C & _)|(e & r & k & C & _)]]]]]]]];
      try discriminate C; try (elim C; fail).
    injection C0 as <- <- <-. rewrite (v_map _ _ _ I) in C. destruct C as [(C & _)|(o' & c & MO & O & C)]; [discriminate C|].
    injection MO as <-. rewrite chunks_app.
    assert (RC : chunks QE o (receiving_err QE u (Some o)) = []).
    { apply (noio_nil QE o). intros e He. eapply receiving_noio; exact He. }
    pose proof (qrun_flags QE _ _ _ (v_q _ _ _ I) o) as FL. rewrite O in FL.
    destruct C as [(KD & ->)|(r & b & KD & _ & ->)].
    + exists rest. rewrite RC, app_nil_r. split; [exact H1|]. intro ND. elim ND. apply in_app_iff. left.
      apply (f_disc _ _ _ _ FL). exact KD.
    + assert (ND : ~ In (ODiscredit o) (z_qt z)) by (intro W; apply (f_disc _ _ _ _ FL) in W; congruence).
      exists (skipn n (z_ups z)). rewrite (H2 ND) in H1.
      assert (CH : chunks QE o (OChunk o (firstn n (z_ups z)) r ::
                     match r with TReturned (S _) => receiving_err QE u (Some o) | _ => [] end) = [firstn n (z_ups z)]).
      { unfold chunks. cbn [flat_map]. rewrite Nat.eqb_refl. cbn [app]. f_equal.
        destruct r as [[|k]|]; [reflexivity|exact RC|reflexivity]. }
      rewrite CH, concat_app. cbn [concat]. rewrite app_nil_r, <- app_assoc, firstn_skipn. split; [exact H1|auto].
  - exists [], qs. rewrite app_nil_r. destruct (passed_of _ _ _ P) as (P1 & P2).
    split; cbn [TsSystemModel.z_q TsSystemModel.z_ql TsSystemModel.z_qt TsSystemModel.z_c TsSystemModel.z_cl TsSystemModel.z_ct
      TsSystemModel.z_ups TsSystemModel.z_downs TsSystemModel.z_lost TsSystemModel.z_app]; try (apply I).
    + rewrite app_assoc, (v_down _ _ _ I), stream_app. reflexivity.
    + apply Forall_app. split.
      * eapply downs_more; [| |exact (v_downs _ _ _ I)]; [auto|]. intros y W. apply in_app_iff. auto.
      * apply Forall_forall. intros q HQ. destruct (P1 q HQ) as (n' & p & ts & Q & [IN|[]]). injection IN as <- <-.
        exists n, (PAnswer x), ts. split; [exact Q|]. right. exists x. split; [reflexivity|]. apply in_app_iff. right. left. reflexivity.
    + intros n' p N0 IN. destruct (v_passed _ _ _ I n' p N0 IN) as [W|(ts & W)]; [left; apply in_app_iff; auto|].
      right. exists ts. apply in_app_iff. auto.
  - exists qs, []. rewrite app_nil_r. apply inv_client; auto.
    unfold TsClientTrace.chunks. rewrite flat_map_app. fold (TsClientTrace.chunks CE es). rewrite (chunks_client _ _ _ _ F).
    replace (match l with TsClientModel.LData d _ => [d] | _ => [] end) with (@nil bytes).
    + rewrite app_nil_r. exact (v_down _ _ _ I).
    + destruct l; try reflexivity. elim OW.
  - exists qs, []. rewrite app_nil_r. apply inv_client; auto.
    unfold TsClientTrace.chunks. rewrite flat_map_app. fold (TsClientTrace.chunks CE es). rewrite (chunks_client _ _ _ _ F).
    subst l0. cbn beta iota. rewrite concat_app. cbn [concat]. rewrite app_nil_r, <- app_assoc, firstn_skipn. exact (v_down _ _ _ I).
Qed.

Lemma inv_reach z0 z : fresh QE CE u o z0 -> reach QE CE K A u z0 z -> exists ups downs, inv z ups downs.
Proof.
  intros FR R. induction R as [|z1 z2 R IH M]; [exists [], []; apply inv_fresh; exact FR|].
  destruct IH as (ups & downs & I). destruct (inv_move _ _ _ _ I M) as (qs & qs' & I'). eauto.
Qed.

(** ** What each side reads of the other's messages *)

Lemma frame_ok sig ib n ts : fst ib < 2 ^ 32 -> sig < 2 ^ 16 -> blen (snd ib) + 26 < 2 ^ 64 -> packet_ok (frame sig ib n ts).
Proof.
  intros H1 H2 H3. unfold packet_ok, frame. cbn [p_id p_sig p_seq p_ts p_body].
  repeat split; auto; apply N.mod_lt; discriminate.
Qed.

Lemma up_frame a w n ts : declared QE K w -> let q := frame (TsClientModel.t_sig CE) (z_msg _ K a w) n ts in
  packet_ok q /\ quiet (q_get QE) (q_sig QE) q /\ exists m, q_get QE (fst (z_msg _ K a w)) (snd (z_msg _ K a w)) = Ok m /\
    deliver (q_get QE) (q_sig QE) q = [(hdr q, m)].
Proof.
  intro DC. cbn zeta. destruct (z_up _ _ _ OK a w DC) as (H1 & H2 & m & G & _). split; [apply frame_ok; auto; exact (z_sig16 _ _ _ OK)|].
  split; [split; [symmetry; exact (z_sig _ _ _ OK)|cbn [frame p_id p_body]; rewrite G; discriminate]|].
  exists m. split; [exact G|]. unfold deliver. cbn [frame p_id p_body p_sig]. rewrite (z_sig _ _ _ OK), N.eqb_refl, G. reflexivity.
Qed.
Lemma down_frame p n ts : let q := frame (q_sig QE) (z_pay _ K p) n ts in
  packet_ok q /\ quiet (TsClientModel.t_get CE) (TsClientModel.t_sig CE) q /\
  exists m, TsClientModel.t_get CE (fst (z_pay _ K p)) (snd (z_pay _ K p)) = Ok m /\
    deliver (TsClientModel.t_get CE) (TsClientModel.t_sig CE) q = [(hdr q, m)].
Proof.
  cbn zeta. destruct (z_down _ _ _ OK p) as (H1 & H2 & m & G & _).
  split; [apply frame_ok; auto; rewrite (z_sig _ _ _ OK); exact (z_sig16 _ _ _ OK)|].
  split; [split; [exact (z_sig _ _ _ OK)|cbn [frame p_id p_body]; rewrite G; discriminate]|].
  exists m. split; [exact G|]. unfold deliver. cbn [frame p_id p_body p_sig]. rewrite (z_sig _ _ _ OK), N.eqb_refl, G. reflexivity.
Qed.

Lemma ups_ok t l ups : Forall2 (of_call t) l ups ->
  Forall packet_ok ups /\ Forall (quiet (q_get QE) (q_sig QE)) ups /\ count_bad (q_get QE) (q_sig QE) ups = 0%nat.
Proof.
  induction 1 as [|an q l ups (w & ts & _ & DC & ->) F (I1 & I2 & I3)]; [repeat split; constructor|].
  destruct (up_frame (fst an) w (snd an) ts DC) as (H1 & H2 & m & _ & D). split; [constructor; auto|]. split; [constructor; auto|].
  unfold count_bad, badb in *. cbn [filter]. rewrite D. exact I3.
Qed.
Lemma downs_ok l l' downs : Forall (of_pay l l') downs ->
  Forall packet_ok downs /\ Forall (quiet (TsClientModel.t_get CE) (TsClientModel.t_sig CE)) downs /\
  count_bad (TsClientModel.t_get CE) (TsClientModel.t_sig CE) downs = 0%nat.
Proof.
  induction 1 as [|q downs (n & p & ts & -> & _) F (I1 & I2 & I3)]; [repeat split; constructor|].
  destruct (down_frame p n ts) as (H1 & H2 & m & _ & D). split; [constructor; auto|]. split; [constructor; auto|].
  unfold count_bad, badb in *. cbn [filter]. rewrite D. exact I3.
Qed.

Lemma no_packet_nil : no_packet [].
Proof.
  intros p r Hp C. symmetry in C. apply app_eq_nil in C as (C & _).
  apply (f_equal blen) in C. rewrite wire_blen in C. unfold blen in C. cbn in C. lia.
Qed.

(** A reader fed with the beginning of a stream of packets that can be read. *)
Lemma fed_prefix {M} (get : N -> bytes -> res M err) sig cs os b q ps rest :
  ts_feeds get sig (mkBuf [] []) cs os (mkBuf b q) ->
  Forall packet_ok ps -> Forall (quiet get sig) ps -> count_bad get sig ps = 0%nat ->
  concat cs ++ rest = stream ps -> blen (concat cs) < 2 ^ 64 ->
  exists j, q = flat_map (deliver get sig) (firstn j ps) /\ Forall (eq (TReturned 0)) os /\ (rest = [] -> firstn j ps = ps).
Proof.
  intros F PO QU BAD E L.
  destruct (stream_prefix get sig ps (concat cs) rest [] PO no_packet_nil) as (j & x & E1 & E2 & NP); [rewrite app_nil_r; exact E|].
  rewrite app_nil_r in E2.
  assert (SP : forall P, Forall P ps -> Forall P (firstn j ps)).
  { intros P W. rewrite <- (firstn_skipn j ps) in W. apply Forall_app in W. tauto. }
  destruct (ts_feed_all get sig cs (firstn j ps) x (mkBuf [] [])) as (ns & G & S); auto.
  { rewrite <- E1. exact L. }
  { exists []. split; [reflexivity|exact no_packet_nil]. }
  destruct (ts_feeds_fun _ _ _ _ _ _ F _ _ G) as (-> & Q). injection Q as -> ->. cbn [rb_queue app].
  exists j. split; [reflexivity|]. split.
  - assert (Z : list_sum ns = 0%nat).
    { rewrite S. rewrite <- (firstn_skipn j ps), count_bad_app in BAD. lia. }
    clear - Z. induction ns as [|n ns IH]; constructor; cbn in Z.
    + f_equal. lia.
    + apply IH. change (list_sum ns = 0%nat). unfold list_sum. lia.
  - intros ->. rewrite app_nil_r in E2. 
    assert (SK : skipn j ps = []).
    { destruct (skipn j ps) as [|p r] eqn:SK; [reflexivity|]. exfalso.
      assert (PK : packet_ok p). { rewrite <- (firstn_skipn j ps), SK in PO. apply Forall_app in PO as (_ & PO). inversion PO; assumption. }
      apply (NP p (stream r) PK). rewrite E2. reflexivity. }
    rewrite <- (firstn_skipn j ps) at 2. rewrite SK, app_nil_r. reflexivity.
Qed.

Lemma server_reads z ups downs : inv z ups downs -> blen (concat (chunks QE o (z_qt z))) < 2 ^ 64 ->
  exists j left, reads QE o (z_qt z) ++ left = flat_map (deliver (q_get QE) (q_sig QE)) (firstn j ups) /\
    (forall d n, ~ In (OChunk o d (TReturned (S n))) (z_qt z)) /\
    (forall c, p_obj (z_q z) o = Some c -> left = rb_queue (k_buf c)) /\
    (~ In (ODiscredit o) (z_qt z) -> z_ups z = [] -> firstn j ups = ups) /\
    Forall (eq (TReturned 0)) (outcomes QE o (z_qt z)).
Proof.
  intros I L. destruct (ups_ok _ _ _ (v_ups _ _ _ I)) as (U1 & U2 & U3).
  destruct (i_made QE _ _ (qrun_inv QE _ _ _ (v_q _ _ _ I)) _ _ (v_o _ _ _ I)) as (c & O & _).
  pose proof (qrun_fed QE _ _ _ (v_q _ _ _ I) o) as FD. unfold fed in FD. rewrite O in FD. destruct FD as (FD & _).
  destruct (v_up _ _ _ I) as (rest & E & ND).
  destruct (fed_prefix _ _ _ _ _ _ _ _ FD U1 U2 U3 E L) as (j & Q & OS & FN).
  exists j, (rb_queue (k_buf c)). split; [exact Q|]. split; [|split; [|split; [|exact OS]]].
  - intros d n W. assert (IN : In (TReturned (S n)) (outcomes QE o (z_qt z))).
    { unfold outcomes. apply in_flat_map. exists (OChunk o d (TReturned (S n))). split; [exact W|]. rewrite Nat.eqb_refl. left. reflexivity. }
    rewrite Forall_forall in OS. apply OS in IN. discriminate IN.
  - intros c' O'. congruence.
  - intros D ZU. apply FN. rewrite (ND D). exact ZU.
Qed.

Lemma client_reads z ups downs : inv z ups downs -> blen (concat (TsClientTrace.chunks CE (z_ct z))) < 2 ^ 64 ->
  exists j, TsClientTrace.reads CE (z_ct z) ++ rb_queue (TsClientModel.c_buf (z_c z)) =
      flat_map (deliver (TsClientModel.t_get CE) (TsClientModel.t_sig CE)) (firstn j downs) /\
    (TsClientModel.c_drain (z_c z) = false -> rb_queue (TsClientModel.c_buf (z_c z)) = []) /\
    (z_downs z = [] -> firstn j downs = downs).
Proof.
  intros I L. destruct (downs_ok _ _ _ (v_downs _ _ _ I)) as (U1 & U2 & U3).
  destruct (TsClientTrace.trun_feeds CE _ _ _ (v_c _ _ _ I)) as (FD & ST).
  destruct (fed_prefix _ _ _ _ _ _ _ _ FD U1 U2 U3 (v_down _ _ _ I) L) as (j & Q & OS & FN).
  exists j. split; [exact Q|]. split; [|exact FN].
  intro D. destruct (rb_queue (TsClientModel.c_buf (z_c z))) as [|x r]; [reflexivity|].
  destruct (ST D ltac:(discriminate)) as (os & x' & E & NE). rewrite E in OS. apply Forall_app in OS as (_ & OS).
  inversion OS as [|? ? W]. elim NE. symmetry. exact W.
Qed.

(** ** Calls *)

Lemma call_act z ups downs a w : inv z ups downs -> In (TsClientModel.VCall a w) (z_ct z) ->
  exists g, TsClientModel.c_act (z_c z) a = Some (w, g).
Proof.
  intros I IN. pose proof (TsClientProofs.i_shape CE _ _ (TsClientProofs.trun_inv CE _ _ _ (v_c _ _ _ I)) a) as S.
  apply (TsClientTrace.in_life CE a) in IN; [|apply Nat.eqb_refl].
  destruct (TsClientModel.c_act (z_c z) a) as [[w' g]|]; [|cbn [TsClientProofs.shape] in S; rewrite S in IN; elim IN].
  exists g. f_equal. f_equal. destruct g as [n|n m|v|]; cbn [TsClientProofs.shape] in S.
  - rewrite S in IN. destruct IN as [IN|[IN|[]]]; [injection IN as ->; reflexivity|discriminate IN].
  - rewrite S in IN. destruct IN as [IN|[IN|[IN|[]]]]; [injection IN as ->; reflexivity|discriminate IN|discriminate IN].
  - destruct S as (n & m & _ & _ & S). rewrite S in IN.
    destruct IN as [IN|[IN|[IN|[IN|[]]]]]; [injection IN as ->; reflexivity|discriminate IN|discriminate IN|discriminate IN].
  - destruct S as [(k & e & _ & _ & S)|[(n & r & e & _ & _ & S)|(n & m & r & _ & S)]]; rewrite S in IN;
      (destruct IN as [IN|IN]; [injection IN as ->; reflexivity|]); repeat destruct IN as [IN|IN]; try discriminate IN; elim IN.
Qed.

Lemma in_sent_up a n t : In (a, n) (sent_up CE t) <-> In (TsClientModel.VNum a n TsClientModel.SOk) t.
Proof.
  unfold sent_up. rewrite in_flat_map. split.
  - intros (e & He & H). destruct e; try (elim H; fail). destruct r; try (elim H; fail). destruct H as [H|[]]. injection H as <- <-. exact He.
  - intro H. eexists. split; [exact H|]. left. reflexivity.
Qed.

Lemma num_small z ups downs a n r : inv z ups downs -> In (TsClientModel.VNum a n r) (z_ct z) -> r = TsClientModel.SOk -> n mod 2 ^ 32 = n /\ n <> 0.
Proof.
  clear A. intros I IN ->. apply in_split in IN as (p & q & Q).
  destruct (PropTsClient.C78_numbers_are_counted CE _ _ _ _ _ _ _ _ (v_c _ _ _ I) Q) as (H & L).
  split; [apply N.mod_small; apply L; reflexivity|]. lia.
Qed.

Lemma num_inj z ups downs a b n r r' : inv z ups downs -> In (TsClientModel.VNum a n r) (z_ct z) ->
  In (TsClientModel.VNum b n r') (z_ct z) -> a = b.
Proof.
  clear A. intros I H1 H2. apply in_split in H1 as (p & q & Q). pose proof H2 as H3. rewrite Q in H2.
  apply in_app_iff in H2 as [H2|[H2|H2]].
  - apply in_split in H2 as (p1 & p2 & ->). rewrite <- app_assoc in Q.
    pose proof (PropTsClient.C78_numbers_differ CE _ _ _ _ _ _ _ _ _ _ _ _ (v_c _ _ _ I) Q). lia.
  - injection H2. intros. subst. reflexivity.
  - apply in_split in H2 as (p1 & p2 & ->).
    pose proof (PropTsClient.C78_numbers_differ CE _ _ _ _ _ _ _ _ _ _ _ _ (v_c _ _ _ I) Q). lia.
Qed.

(** What the producer reads is the message of a promise. *)
Lemma read_up z ups downs h m : inv z ups downs -> blen (concat (chunks QE o (z_qt z))) < 2 ^ 64 ->
  In (ORead o h m) (z_qt z) -> exists a w,
    In (TsClientModel.VCall a w) (z_ct z) /\ In (TsClientModel.VNum a (h_seq h) TsClientModel.SOk) (z_ct z) /\
    declared QE K w /\ q_get QE (fst (z_msg _ K a w)) (snd (z_msg _ K a w)) = Ok m.
Proof.
  intros I L IN. destruct (server_reads _ _ _ I L) as (j & left & E & _).
  assert (R : In (h, m) (reads QE o (z_qt z))).
  { apply in_flat_map. exists (ORead o h m). split; [exact IN|]. rewrite Nat.eqb_refl. left. reflexivity. }
  assert (D : In (h, m) (flat_map (deliver (q_get QE) (q_sig QE)) (firstn j ups))) by (rewrite <- E; apply in_app_iff; auto).
  apply in_flat_map in D as (q & HQ & D).
  assert (HQ' : In q ups) by (rewrite <- (firstn_skipn j ups); apply in_app_iff; auto).
  assert (W : exists an, In an (sent_up CE (z_ct z)) /\ of_call (z_ct z) an q).
  { pose proof (v_ups _ _ _ I) as F. clear - F HQ'. induction F as [|an q' l l' H F IH]; [elim HQ'|].
    destruct HQ' as [<-|HQ']; [exists an; split; [left; reflexivity|exact H]|].
    destruct (IH HQ') as (an' & H1 & H2). exists an'. split; [right; exact H1|exact H2]. }
  destruct W as ((a & n) & HA & w & ts & HC & DC & ->). cbn [fst snd] in *.
  destruct (up_frame a w n ts DC) as (_ & _ & m' & G & DV). rewrite DV in D. destruct D as [D|[]]. injection D as <- <-.
  apply in_sent_up in HA. destruct (num_small _ _ _ _ _ _ I HA eq_refl) as (NM & _).
  exists a, w. split; [exact HC|]. split; [|split; [exact DC|exact G]]. cbn [hdr frame p_seq h_seq]. rewrite NM. exact HA.
Qed.

(** What the producer answers is the message of a promise. *)
Lemma send_up z ups downs c n p : inv z ups downs -> blen (concat (chunks QE o (z_qt z))) < 2 ^ 64 ->
  In (OSend c u n p) (z_qt z) ->
  exists a w h m', In (TsClientModel.VCall a w) (z_ct z) /\ In (TsClientModel.VNum a n TsClientModel.SOk) (z_ct z) /\
    In (ORead o h m') (z_qt z) /\ h_seq h = n /\ declared QE K w /\
    q_get QE (fst (z_msg _ K a w)) (snd (z_msg _ K a w)) = Ok m' /\
    match c with
    | ByLoop => match p with
                | PSelf v => v = u /\ q_self QE m' = true
                | PHash ok => q_hash QE m' <> None /\ (ok = true <-> q_hash QE m' = Some (q_proto QE, q_work QE))
                | _ => False
                end
    | ByTask t => In (OStart t o h m') (z_qt z) /\
        match p with
        | PAnswer y => exists r bs, q_for QE m' = Some (true, r) /\ In (OResult t y bs) (z_qt z)
        | PConfirm => exists r, q_for QE m' = Some (false, r)
        | _ => False
        end
    end.
Proof.
  intros I L IN. apply in_split in IN as (p1 & p2 & Q).
  pose proof (C87_own_number QE _ _ _ _ _ _ _ _ _ (v_q _ _ _ I) Q) as W. destruct c as [|t].
  - destruct W as (o' & h & m & p' & HP & HC & HN & HX).
    assert (o' = o) as ->.
    { apply (v_only _ _ _ I). rewrite Q. apply in_app_iff. left. destruct HP as [-> | ->]; apply in_app_iff; auto. }
    assert (RD : In (ORead o h m) (z_qt z)).
    { rewrite Q. apply in_app_iff. left. destruct HP as [-> | ->]; apply in_app_iff; right; left; reflexivity. }
    destruct (read_up _ _ _ _ _ I L RD) as (a & w & H1 & H2 & H3 & H4). rewrite HN in H2. exists a, w, h, m. auto 12.
  - destruct W as (o' & h & m & HS & HC & HN & HX).
    assert (o' = o) as -> by (apply (v_only _ _ _ I); rewrite Q; apply in_app_iff; auto).
    assert (ST : In (OStart t o h m) (z_qt z)) by (rewrite Q; apply in_app_iff; auto).
    assert (RD : In (ORead o h m) (z_qt z)).
    { pose proof ST as S'. apply in_split in S' as (s1 & s2 & S').
      destruct (C85_handler_after_handshake QE _ _ _ _ _ _ _ _ _ (v_q _ _ _ I) S') as (p' & -> & _).
      rewrite S', <- app_assoc. apply in_app_iff. right. left. reflexivity. }
    destruct (read_up _ _ _ _ _ I L RD) as (a & w & H1 & H2 & H3 & H4). rewrite HN in H2. exists a, w, h, m.
    do 7 (split; [solve [auto]|]). destruct p; auto.
    destruct HX as (r & bs & p' & E & ->). exists r, bs. split; [exact E|]. rewrite Q, <- app_assoc. apply in_app_iff. right. left. reflexivity.
Qed.

(** What the consumer reads is a message of the producer. *)
Lemma read_down z ups downs h m : inv z ups downs -> blen (concat (TsClientTrace.chunks CE (z_ct z))) < 2 ^ 64 ->
  In (TsClientModel.VRead h m) (z_ct z) -> exists n p,
    h_seq h = n mod 2 ^ 32 /\ TsClientModel.t_get CE (fst (z_pay _ K p)) (snd (z_pay _ K p)) = Ok m /\
    ((exists c, In (OSend c u n p) (z_qt z)) \/ n = 0 \/ exists x, p = PAnswer x /\ In (n, x) (z_app z)).
Proof.
  intros I L IN. destruct (client_reads _ _ _ I L) as (j & E & _).
  assert (R : In (h, m) (TsClientTrace.reads CE (z_ct z))).
  { apply in_flat_map. exists (TsClientModel.VRead h m). split; [exact IN|]. left. reflexivity. }
  assert (D : In (h, m) (flat_map (deliver (TsClientModel.t_get CE) (TsClientModel.t_sig CE)) (firstn j downs))) by (rewrite <- E; apply in_app_iff; auto).
  apply in_flat_map in D as (q & HQ & D).
  assert (HQ' : In q downs) by (rewrite <- (firstn_skipn j downs); apply in_app_iff; auto).
  pose proof (v_downs _ _ _ I) as F. rewrite Forall_forall in F. destruct (F q HQ') as (n & p & ts & -> & W).
  destruct (down_frame p n ts) as (_ & _ & m' & G & DV). rewrite DV in D. destruct D as [D|[]]. injection D as <- <-.
  exists n, p. split; [reflexivity|]. split; [exact G|]. destruct W as [W|W]; [|auto].
  apply in_handed in W as [W|(-> & _)]; auto.
Qed.

End Proofs.
