(** The invariant of a Rust producer and a TypeScript consumer that are connected (C98). *)
From Coq Require Import List NArith Arith Bool Lia.
From Verif Require Import Bytes WireModel FrameModel FrameProofs TsModel TsReader.
From Verif Require ProducerProofs ProducerSeg ProducerStop SystemModel SystemServer SystemProofs SystemAnswers ProducerMore.
From Verif Require TsClientModel TsClientProofs TsClientTrace PropTsClient TsSystemModel TsSystemProofs.
From Verif Require Import ProducerModel CrossModel.
Import ListNotations.
Open Scope N_scope.

Section Proofs.
Variable PE : env.
Variable CE : TsClientModel.tenv.
Variable K : xcodec PE.
Hypothesis OK : compatible PE CE K.
Variable u : N.
Local Notation tev := (TsClientModel.tev (TsClientModel.t_msg CE)).
Local Notation xsys := (xsys PE CE).
Local Notation r_p := (r_p PE CE). Local Notation r_run := (r_run PE CE). Local Notation r_pt := (r_pt PE CE).
Local Notation r_c := (r_c PE CE). Local Notation r_cl := (r_cl PE CE). Local Notation r_ct := (r_ct PE CE).
Local Notation r_ups := (r_ups PE CE). Local Notation r_downs := (r_downs PE CE).
Local Notation handled_by := (SystemModel.handled_by PE u).
Local Notation sent_down := (SystemModel.sent_down PE u).
Local Notation sent_up := (TsSystemModel.sent_up CE).
Local Notation up_deliver := (deliver (e_get PE) (e_sig PE)).
Local Notation Good := (SystemServer.Good PE u).
Local Notation idle := (SystemServer.idle PE u).
Local Notation at_ease := (SystemServer.at_ease PE u).
Local Notation holds := (SystemServer.holds PE).
Local Notation flags := (SystemServer.flags PE u).

(** ** The consumer: what it has read before it sends *)
Definition polite (t : list tev) : Prop := forall p a w q, t = p ++ TsClientModel.VCall a w :: q ->
  match w with TsClientModel.WReq _ _ | TsClientModel.WBeacon _ _ => exists v, In (TsClientModel.VReady v) p | _ => True end.

Section Client.
Variables (ls : list TsClientModel.label) (s : TsClientModel.tst (TsClientModel.t_msg CE)) (t : list tev).
Hypothesis R : TsClientModel.trun CE ls s t.

Lemma matched_read a n m : In (TsClientModel.VMatch a n m) t -> exists h, In (TsClientModel.VRead h m) t.
Proof.
  intro J. destruct (in_split _ _ J) as (p & q & Q).
  destruct (TsClientTrace.match_after_read CE _ _ _ _ _ _ _ _ R Q) as (p' & h & -> & _).
  exists h. rewrite Q, <- app_assoc. apply in_elt.
Qed.

Lemma hash_read a v : In (TsClientModel.VCall a (TsClientModel.WHash v)) t ->
  exists h m, In (TsClientModel.VRead h m) t /\ TsClientModel.t_self CE m = Some v.
Proof.
  intro J. destruct (in_split _ _ J) as (p & q & Q).
  destruct (TsClientTrace.trun_split CE _ _ _ R _ _ _ Q) as (ls1 & s1 & tr1 & l & s2 & e1 & e2 & R1 & F & P & _).
  destruct (TsClientTrace.call_by CE _ _ _ _ _ _ _ F) as (_ & b & w & r0 & _ & C).
  pose proof (TsClientProofs.i_shape CE _ _ (TsClientProofs.trun_inv CE _ _ _ R1) b) as SH. rewrite C in SH.
  destruct SH as (n & m & _ & TS & L).
  assert (M : In (TsClientModel.VMatch b n m) tr1).
  { apply (TsClientTrace.in_life CE b tr1); [cbn; apply Nat.eqb_refl|]. rewrite L. right. right. left. reflexivity. }
  destruct (matched_read b n m) as (h & H).
  { rewrite Q, P. rewrite !in_app_iff. auto. }
  exists h, m. auto.
Qed.

Lemma ready_read v : In (TsClientModel.VReady v) t ->
  exists h m, In (TsClientModel.VRead h m) t /\ TsClientModel.t_hash CE m = Some None.
Proof.
  intro J. destruct (in_split _ _ J) as (p & q & Q).
  destruct (PropTsClient.C83_ready_after_handshake CE _ _ _ _ _ _ R Q) as (a & na & ma & b & nb & mb & p1 & p2 & p3 & p4 & p5 & E & _ & H).
  destruct (matched_read b nb mb) as (h & HR).
  { rewrite Q, E. rewrite !in_app_iff. cbn [In]. tauto. }
  exists h, mb. auto.
Qed.
End Client.

Lemma polite_app ls s t l s' es : TsClientModel.trun CE ls s t -> TsClientModel.fire CE s l = Some (s', es) ->
  patient CE t l -> polite t -> polite (t ++ es).
Proof.
  intros R F PA P p a w q Q. destruct (app_eq_app _ _ _ _ Q) as (x & [(Q1 & Q2)|(Q1 & Q2)]).
  - destruct x as [|o x].
    + rewrite app_nil_r in Q1. cbn [app] in Q2. rewrite <- Q2 in F.
      destruct (TsClientTrace.call_by CE _ _ _ [] _ _ _ F) as (_ & C). subst p.
      destruct w; auto; destruct C as (r1 & ->); exact PA.
    + cbn [app] in Q2. injection Q2 as <- Q2. exact (P _ _ _ _ Q1).
  - rewrite Q2 in F. destruct (TsClientTrace.call_by CE _ _ _ _ _ _ _ F) as (-> & C). rewrite app_nil_r in Q1. subst p.
    destruct w; auto; destruct C as (r1 & ->); exact PA.
Qed.

(** ** Packets *)
Definition of_call (t : list tev) (an : nat * N) (q : packet) : Prop :=
  exists w ts, In (TsClientModel.VCall (fst an) w) t /\
    q = TsSystemModel.frame (TsClientModel.t_sig CE) (r_up _ K (fst an) w) (snd an) ts.

Lemma ups_ok t l qs : Forall2 (of_call t) l qs -> Forall packet_ok qs /\ Forall (good (e_get PE) (e_sig PE)) qs.
Proof.
  induction 1 as [|[a n] q l qs (w & ts & _ & ->) F IH]; [split; constructor|]. destruct IH as (I1 & I2).
  destruct (r_ups_ok _ _ _ OK a w) as (X & Y & m & G & _). cbn [fst snd]. split; constructor; auto.
  - apply TsSystemProofs.frame_ok; auto. apply (r_sig16 _ _ _ OK).
  - split; cbn [TsSystemModel.frame p_id p_sig p_body]; [symmetry; apply (r_sig _ _ _ OK)|]. eauto.
Qed.
Lemma downs_ok ms qs : down_packets PE K ms qs ->
  Forall packet_ok qs /\ Forall (good (TsClientModel.t_get CE) (TsClientModel.t_sig CE)) qs.
Proof.
  induction 1 as [|[n p] q ms qs (ts & ->) F IH]; [split; constructor|]. destruct IH as (I1 & I2).
  destruct (r_downs_ok _ _ _ OK p) as (X & Y & m & G & _). cbn [fst snd]. split; constructor; auto.
  - apply TsSystemProofs.frame_ok; auto. rewrite (r_sig _ _ _ OK). apply (r_sig16 _ _ _ OK).
  - split; cbn [TsSystemModel.frame p_id p_sig p_body]; [apply (r_sig _ _ _ OK)|]. eauto.
Qed.

(** ** The producer: whether [u] is marked as confirmed *)
Definition near (t : list (out PE)) (c c' : consumer PE) : Prop :=
  c_conf PE c' = c_conf PE c /\ (c_disc PE c = true -> c_disc PE c' = true) /\
  (c_disc PE c' = true -> c_disc PE c = true \/ exists ok, In (ODisc PE u ok) t).
Definition same {A} (m : P PE A) : Prop := forall s c, find PE u (s_tab PE s) = Some c ->
  ProducerProofs.wp PE m s (fun t s' _ => exists c', find PE u (s_tab PE s') = Some c' /\ near t c c').
Lemma near_refl t c : near t c c.
Proof. repeat split; auto. Qed.
Lemma near_trans t1 t2 c c1 c2 : near t1 c c1 -> near t2 c1 c2 -> near (t1 ++ t2) c c2.
Proof.
  intros (A1 & B1 & D1) (A2 & B2 & D2). split; [congruence|]. split; [auto|]. intros W. destruct (D2 W) as [W'|(ok & J)].
  - destruct (D1 W') as [W2|(ok & J)]; [auto|]. right. exists ok. apply in_app_iff. auto.
  - right. exists ok. apply in_app_iff. auto.
Qed.

Lemma same_bind {A B} (m : P PE A) (f : A -> P PE B) : same m -> (forall a, same (f a)) -> same (bindp PE m f).
Proof.
  intros Hm Hf s c F. apply ProducerProofs.wp_bind. eapply ProducerProofs.wp_mono; [apply (Hm s c F)|]. cbv beta.
  intros t s1 [a|e|] (c1 & F1 & C1); [|exists c1; auto|exists c1; auto].
  eapply ProducerProofs.wp_mono; [apply (Hf a s1 c1 F1)|]. cbv beta. intros t2 s2 r2 (c2 & F2 & C2). exists c2. split; [exact F2|].
  eapply near_trans; eauto.
Qed.
Lemma same_fits {A} (m : P PE A) : SystemServer.fits PE u m -> same m.
Proof. intros H s c F. eapply ProducerProofs.wp_mono; [apply H|]. cbv beta. intros t s' r (_ & Q). exists c. rewrite Q. auto using near_refl. Qed.
Lemma same_ret {A} (a : A) : same (ret PE a).
Proof. apply same_fits, SystemServer.fits_ret. Qed.
Lemma same_stop {A} e : same (@stop PE A e).
Proof. apply same_fits, SystemServer.fits_stop. Qed.
Lemma same_emit o : same (emit PE o).
Proof. intros s c F. exists c. auto using near_refl. Qed.
Lemma same_world {A} (f : _ -> _ * A) : same (world PE f).
Proof. apply same_fits, SystemServer.fits_world. Qed.
Lemma same_look v : same (look PE v).
Proof. intros s c F. exists c. auto using near_refl. Qed.
Lemma same_upd v f : (forall c, c_conf PE (f c) = c_conf PE c /\ c_disc PE (f c) = c_disc PE c) -> same (upd PE v f).
Proof.
  intros H s c F. unfold ProducerProofs.wp, upd. destruct (find PE v (s_tab PE s)) as [d|] eqn:Fv; cbn [fst snd s_tab].
  - destruct (N.eqb_spec v u) as [->|NE].
    + exists (f c). split; [|]. { rewrite F in Fv. injection Fv as <-. eapply ProducerProofs.find_put_same. exact F. }
      destruct (H c) as (H1 & H2). split; [exact H1|]. rewrite H2. auto.
    + exists c. split; [|apply near_refl]. rewrite ProducerProofs.find_put_other by exact NE. exact F.
  - exists c. auto using near_refl.
Qed.
Lemma same_send v n p : same (send PE v n p).
Proof. apply same_bind; [apply same_world|]. intros ok. apply same_bind; [apply same_emit|]. intros _. apply same_ret. Qed.
Lemma same_try_pack v n p : same (try_pack PE v n p).
Proof. apply same_bind; [apply same_world|]. intros [|]; [apply same_ret|]. apply same_bind; [apply same_emit|]. intros _. apply same_ret. Qed.
Lemma same_pack_send v n p : same (pack_send PE v n p).
Proof. apply same_bind; [apply same_try_pack|]. intros [|]; [apply same_send|apply same_ret]. Qed.
Lemma same_disconnect v : same (disconnect PE v).
Proof.
  destruct (N.eqb_spec v u) as [->|NE]; [|apply same_fits, SystemServer.fits_disconnect; exact NE].
  intros s c F. unfold disconnect. apply ProducerStop.wp_bind_look. rewrite F.
  destruct (c_disc PE c) eqn:DC; [exact (same_ret tt s c F)|].
  eapply ProducerStop.wp_bind_upd; [exact F|].
  match goal with |- ProducerProofs.wp PE _ ?z _ => set (z1 := z); assert (F1 : find PE u (s_tab PE z1) = Some (set_disc PE c)) by (eapply ProducerProofs.find_put_same; exact F) end.
  clearbody z1. apply ProducerProofs.wp_bind. unfold ProducerProofs.wp at 1, world. destruct (w_disconnect PE (s_w PE z1) u) as [w ok]. cbn [fst snd app].
  apply ProducerStop.wp_bind_emit. unfold ProducerProofs.wp.
  assert (N : forall t, near (ODisc PE u ok :: t) c (set_disc PE c)).
  { intros t. split; [reflexivity|]. split; [reflexivity|]. intros _. right. exists ok. left. reflexivity. }
  destruct ok; (exists (set_disc PE c); split; [exact F1|apply N]).
Qed.
Lemma same_emit_error e w i : same (emit_error PE e w i).
Proof.
  apply same_bind; [apply same_world|]. intros ok. apply same_bind; [apply same_emit|]. intros _.
  destruct ok; [apply same_ret|apply same_stop].
Qed.
Lemma same_ident_err v e : same (bindp PE (ident_at PE v) (fun i => emit_error PE e (Some v) i)).
Proof. apply same_bind; [apply same_fits, SystemServer.fits_ident_at|]. intros i. apply same_emit_error. Qed.
Lemma same_expel v e : same (expel PE v e).
Proof. apply same_bind; [apply same_disconnect|]. intros _. apply same_ident_err. Qed.
Lemma same_responsing v : same (responsing_err PE v).
Proof.
  apply same_bind; [destruct (e_cs PE); auto using same_ret, same_disconnect|]. intros _.
  destruct (e_cs PE); auto using same_ret, same_ident_err.
Qed.
Lemma same_not_assigned v : same (not_assigned PE v).
Proof.
  apply same_bind; [destruct (e_is PE); auto using same_ret, same_disconnect|]. intros _.
  destruct (e_is PE); auto using same_ret, same_ident_err.
Qed.
Lemma same_dispatch v c h m : same (dispatch PE v c h m).
Proof.
  unfold dispatch. destruct (e_request PE m) as [r|].
  - apply same_bind; [apply same_fits, SystemServer.fits_process_request|]. intros [|]; [apply same_ret|apply same_responsing].
  - destruct (e_beacon PE m) as [b|]; [|apply same_ret].
    apply same_bind; [apply same_fits, SystemServer.fits_process_beacon|]. intros [|]; [apply same_ret|apply same_emit_error].
Qed.
Lemma same_handle v asg hk h m c : same (handle PE v asg hk h m c).
Proof.
  unfold handle.
  match goal with |- same (match e_self PE m with Some k => if _ then ?x else _ | None => _ end) => assert (O : same x) end.
  { destruct (e_hash PE m) as [pw|].
    - apply same_bind; [destruct (hash_valid PE pw); [apply same_upd; auto|apply same_ret]|]. intros _.
      apply same_bind; [apply same_pack_send|]. intros ok.
      apply same_bind; [destruct ok; [apply same_ret|apply same_responsing]|]. intros _.
      destruct (hash_valid PE pw); [apply same_ret|apply same_expel].
    - destruct (negb (c_hash PE c)); [apply same_expel|]. destruct (negb hk); [apply same_expel|].
      destruct (negb asg && _); [apply same_not_assigned|apply same_dispatch]. }
  destruct (e_self PE m); [|exact O]. destruct (c_hash PE c); [exact O|].
  apply same_bind; [apply same_upd; auto|]. intros _. apply same_bind; [apply same_pack_send|].
  intros [|]; [apply same_ret|apply same_responsing].
Qed.
Lemma same_loop v asg hk ms : same (loop PE v asg hk ms).
Proof.
  induction ms as [|[h m] ms IH]; cbn [loop]; [apply same_ret|].
  apply same_bind; [apply same_look|]. intros [c|]; [|apply same_ret].
  apply same_bind; [apply same_emit|]. intros _. apply same_bind; [apply same_handle|]. intros _. exact IH.
Qed.
Lemma same_received v d : same (process_received_data PE v d).
Proof.
  apply same_bind; [apply same_look|]. intros [c|]; [|apply same_responsing].
  destruct (negb (c_conf PE c)); [apply same_expel|].
  destruct (c_disc PE c); [apply same_ret|]. destruct (chunk _ _ _ _) as [[|e|] b].
  - apply same_bind; [apply same_upd; auto|]. intros _. apply same_loop.
  - apply same_bind; [apply same_upd; auto|]. intros _. apply same_responsing.
  - apply same_fits, SystemServer.fits_panic.
Qed.

(** [u] stays in the table, only its confirmation marks it as confirmed, and it is
    marked as disconnected for ever, and only with a request to disconnect it *)
Definition kept (t : list (out PE)) (c c' : consumer PE) : Prop :=
  (c_conf PE c' = true -> c_conf PE c = true \/ confirmed PE u t) /\ (c_disc PE c = true -> c_disc PE c' = true) /\
  (c_disc PE c' = true -> c_disc PE c = true \/ exists ok, In (ODisc PE u ok) t).
Definition keeps {A} (m : P PE A) : Prop := forall s c, find PE u (s_tab PE s) = Some c ->
  ProducerProofs.wp PE m s (fun t s' r => match r with PGo _ => exists c', find PE u (s_tab PE s') = Some c' /\ kept t c c' | _ => True end).
Lemma near_kept t c c' : near t c c' -> kept t c c'.
Proof. intros (A & B & D). split; [|auto]. rewrite A. auto. Qed.
Lemma keeps_same {A} (m : P PE A) : same m -> keeps m.
Proof.
  intros H s c F. eapply ProducerProofs.wp_mono; [apply (H s c F)|]. cbv beta. intros t s' [a|e|] (c' & F' & C); auto.
  exists c'. auto using near_kept.
Qed.

Lemma keeps_confirm : keeps (confirm PE).
Proof.
  intros s c F. unfold confirm. destruct (s_conf PE s) as [|v q] eqn:SC.
  { unfold ProducerProofs.wp. rewrite SC. cbn [fst snd]. exists c. auto using near_kept, near_refl. }
  unfold ProducerProofs.wp. rewrite SC.
  match goal with |- context [bindp PE ?m ?f ?z] => set (mm := bindp PE m f); set (zz := z) end.
  assert (Fz : find PE u (s_tab PE zz) = Some c) by exact F. clearbody zz.
  destruct (N.eqb_spec v u) as [->|NE].
  - subst mm. match goal with |- context [bindp PE ?m ?f zz] =>
      change (ProducerProofs.wp PE (bindp PE m f) zz (fun t s' r => match r with PGo _ => exists c', find PE u (s_tab PE s') = Some c' /\ kept t c c' | _ => True end)) end.
    apply ProducerStop.wp_bind_look. rewrite Fz. eapply ProducerStop.wp_bind_upd; [exact Fz|].
    match goal with |- ProducerProofs.wp PE _ ?z _ => set (z1 := z); assert (F1 : find PE u (s_tab PE z1) = Some (set_conf PE c)) by (eapply ProducerProofs.find_put_same; exact Fz) end.
    clearbody z1. apply ProducerProofs.wp_bind. eapply ProducerProofs.wp_mono; [apply (same_try_pack (Some u) 0 PConfirm z1 _ F1)|].
    cbv beta. intros t1 s1 [[|]|e|] (c1 & Q1 & C1); try exact I.
    apply ProducerProofs.wp_bind. unfold send. apply ProducerProofs.wp_bind. unfold ProducerProofs.wp at 1, world.
      destruct (w_send PE (s_w PE s1) u 0 PConfirm) as [w ok]. cbn [fst snd]. apply ProducerStop.wp_bind_emit.
      unfold ProducerProofs.wp at 1, ret. cbn [fst snd]. destruct ok; unfold ProducerProofs.wp, ret, stop; cbn [fst snd]; [|exact I].
      exists c1. split; [exact Q1|]. destruct C1 as (_ & C2 & C3). cbn [set_conf c_disc] in C2, C3. split; [|split].
      + intros _. right. exists 0, true. rewrite !in_app_iff. cbn [In]. tauto.
      + exact C2.
      + intros W. destruct (C3 W) as [W'|(ok & J)]; [left; exact W'|]. right. exists ok. rewrite !in_app_iff. cbn [In]. tauto.
  - assert (W : same mm).
    { subst mm. apply same_fits. apply SystemServer.fits_bind; [apply SystemServer.fits_look|]. intros [d|].
      - apply SystemServer.fits_bind; [apply SystemServer.fits_upd; exact NE|]. intros _.
        apply SystemServer.fits_bind; [apply SystemServer.fits_try_pack|]. intros [|]; [|apply SystemServer.fits_stop].
        apply SystemServer.fits_bind; [apply SystemServer.fits_send; congruence|]. intros [|]; [apply SystemServer.fits_ret|apply SystemServer.fits_stop].
      - apply SystemServer.fits_emit_error; discriminate. }
    exact (keeps_same mm W zz c Fz).
Qed.

Lemma same_set v f o : (forall c, c_conf PE (f c) = c_conf PE c /\ c_disc PE (f c) = c_disc PE c) -> same (bindp PE (look PE v) (fun c => match c with
  | Some _ => bindp PE (upd PE v f) (fun _ => bindp PE (emit PE o) (fun _ => ret PE true))
  | None => bindp PE (emit_error PE EConsumer (Some v) None) (fun _ => ret PE true) end)).
Proof.
  intros H. apply same_bind; [apply same_look|]. intros [c|].
  - apply same_bind; [apply same_upd; exact H|]. intros _. apply same_bind; [apply same_emit|]. intros _. apply same_ret.
  - apply same_bind; [apply same_emit_error|]. intros _. apply same_ret.
Qed.

Lemma keeps_true {A} (m : P PE A) : keeps m -> keeps (bindp PE m (fun _ => ret PE true)).
Proof.
  intros H s c F. apply ProducerProofs.wp_bind. eapply ProducerProofs.wp_mono; [apply (H s c F)|]. cbv beta.
  intros t s' [a|e|] W; auto. unfold ProducerProofs.wp, ret. cbn [fst snd]. rewrite app_nil_r. exact W.
Qed.

Lemma keeps_step e : SystemModel.apart u e \/ (exists d, e = VReceived u d) -> keeps (step PE e).
Proof.
  intros [Ap|(d & ->)]; [|apply keeps_true, keeps_same, same_received].
  destruct e; cbn [step SystemModel.apart] in *.
  12: { apply keeps_true, keeps_confirm. }
  all: apply keeps_same.
  - apply same_bind; [apply same_world|]. intros ok. apply same_bind; [apply same_emit|].
    intros _. destruct ok; [apply same_ret|apply same_stop].
  - apply same_ret.
  - apply same_bind; [|intros; apply same_ret]. apply same_fits, SystemServer.fits_add_connection. exact Ap.
  - apply same_bind; [|intros; apply same_ret]. apply same_fits, SystemServer.fits_remove_connection. exact Ap.
  - apply same_bind; [|intros; apply same_ret]. apply same_received.
  - apply same_bind; [apply same_fits, SystemServer.fits_opt_ident|]. intros i.
    apply same_bind; [apply same_emit_error|]. intros _. apply same_ret.
  - apply same_bind; [apply same_fits, SystemServer.fits_opt_ident|]. intros i.
    apply same_bind; [apply same_emit_error|]. intros _. apply same_ret.
  - apply same_bind; [|intros; apply same_ret]. apply same_emit_error.
  - apply same_fits. apply SystemServer.fits_bind; [apply SystemServer.fits_get_tab|]. intros t. apply SystemServer.fits_bind; [apply SystemServer.fits_world|]. intros bs.
    apply SystemServer.fits_bind; [apply SystemServer.fits_emit; exact I|]. intros _. apply SystemServer.fits_bind; [apply SystemServer.fits_emit_event|]. intros _. apply SystemServer.fits_ret.
  - apply same_set. auto.
  - apply same_set. auto.
  - apply same_ret.
Qed.

(** ** The connection *)
Record link (y : xsys) (ups downs : list packet) : Prop := mkLink {
  l_run : TsClientModel.trun CE (r_cl y) (r_c y) (r_ct y);
  l_downs : down_packets PE K (sent_down (r_pt y)) downs;
  l_down : concat (TsClientTrace.chunks CE (r_ct y)) ++ r_downs y = stream downs;
  l_ups : Forall2 (of_call (r_ct y)) (sent_up (r_ct y)) ups;
  l_up : exists gone, gone ++ r_ups y = stream ups;
  l_tab : r_run y = true -> exists c, find PE u (s_tab PE (r_p y)) = Some c /\
    (c_conf PE c = true -> confirmed PE u (r_pt y)) /\ (c_disc PE c = true -> exists ok, In (ODisc PE u ok) (r_pt y))
}.

Local Ltac fields := cbn [CrossModel.r_p CrossModel.r_run CrossModel.r_pt CrossModel.r_c CrossModel.r_cl CrossModel.r_ct CrossModel.r_ups CrossModel.r_downs] in *.

Lemma link_fresh y : fresh PE CE u y -> link y [] [].
Proof.
  intros (R & T & F & C & L & X & U & D). split; rewrite ?R, ?T, ?C, ?L, ?X, ?U, ?D.
  - constructor.
  - constructor.
  - reflexivity.
  - constructor.
  - exists []. reflexivity.
  - intros _. exists (consumer_new PE). split; [exact F|]. split; discriminate.
Qed.

Lemma link_server y ups downs e t s' r qs yu : link y ups downs -> r_run y = true ->
  SystemModel.apart u e \/ (exists d, e = VReceived u d) -> step PE e (r_p y) = (t, (s', r)) ->
  down_packets PE K (sent_down t) qs -> (exists gone, gone ++ yu = stream ups) ->
  link (mkXsys PE CE s' (SystemModel.goes r) (r_pt y ++ t) (r_c y) (r_cl y) (r_ct y) yu (r_downs y ++ stream qs)) ups (downs ++ qs).
Proof.
  intros I R Ap St Dn U. split; fields; try apply I; auto.
  - rewrite SystemProofs.sent_down_app. apply Forall2_app; [apply I|exact Dn].
  - rewrite SystemProofs.stream_app, app_assoc, (l_down _ _ _ I). reflexivity.
  - intros G. destruct (l_tab _ _ _ I R) as (c & F & C & D). pose proof (keeps_step e Ap (r_p y) c F) as W.
    apply (ProducerProofs.wp_elim _ _ _ _ _ _ _ W) in St. destruct r; try discriminate G. destruct St as (c' & F' & C' & _ & D').
    exists c'. split; [exact F'|]. split; intros Q.
    + destruct (C' Q) as [Q'|(n & ok & J)]; [destruct (C Q') as (n & ok & J)|]; exists n, ok; apply in_app_iff; auto.
    + destruct (D' Q) as [Q'|(ok & J)]; [destruct (D Q') as (ok & J)|]; exists ok; apply in_app_iff; auto.
Qed.

Lemma link_client y ups downs l s' es qs yd : link y ups downs -> TsClientModel.fire CE (r_c y) l = Some (s', es) ->
  up_packets PE CE K es qs -> concat (TsClientTrace.chunks CE es) ++ yd = r_downs y ->
  link (mkXsys PE CE (r_p y) (r_run y) (r_pt y) s' (r_cl y ++ [l]) (r_ct y ++ es) (r_ups y ++ stream qs) yd) (ups ++ qs) downs.
Proof.
  intros I F U D. split; fields; try apply I; auto.
  - econstructor; [apply I|exact F].
  - unfold TsClientTrace.chunks in *. rewrite flat_map_app, concat_app, <- app_assoc, D. apply I.
  - rewrite TsSystemProofs.sent_up_app. apply Forall2_app.
    + eapply TsSystemProofs.Forall2_weaken; [|apply I]. intros x q (w & ts & J & Q). exists w, ts. split; [apply in_app_iff; auto|exact Q].
    + eapply TsSystemProofs.Forall2_weaken; [|exact U]. intros x q (w & ts & J & Q). exists w, ts. split; [apply in_app_iff; auto|exact Q].
  - destruct (l_up _ _ _ I) as (gone & Q). exists gone. rewrite SystemProofs.stream_app, app_assoc, Q. reflexivity.
Qed.

Lemma client_chunks y l s' es : TsSystemModel.own_step CE (r_ct y) l -> TsClientModel.fire CE (r_c y) l = Some (s', es) ->
  concat (TsClientTrace.chunks CE es) ++ r_downs y = r_downs y.
Proof. intros O F. rewrite (TsSystemProofs.chunks_client CE _ _ _ _ F). destruct l; try reflexivity. elim O. Qed.
Lemma data_chunks y n fuel s' es : TsClientModel.fire CE (r_c y) (TsClientModel.LData (firstn n (r_downs y)) fuel) = Some (s', es) ->
  concat (TsClientTrace.chunks CE es) ++ skipn n (r_downs y) = r_downs y.
Proof. intros F. rewrite (TsSystemProofs.chunks_client CE _ _ _ _ F). cbn [concat]. rewrite app_nil_r. apply firstn_skipn. Qed.

Lemma link_move A D y y' ups downs : link y ups downs -> move PE CE K A D u y y' -> exists qs qs', link y' (ups ++ qs) (downs ++ qs').
Proof.
  intros I M. destruct M as [y e t s' r qs R Ap St Dn|y n t s' r qs R DD Ln St Dn|y n x ok qs t Dn|y l s' es qs O O2 F U|y n fuel s' es qs l Ln F U].
  - exists [], qs. rewrite app_nil_r. apply (link_server _ _ _ e); auto. apply (l_up _ _ _ I).
  - exists [], qs. rewrite app_nil_r. apply (link_server _ _ _ (VReceived u (firstn n (r_ups y)))); eauto. destruct (l_up _ _ _ I) as (gone & Q).
    exists (gone ++ firstn n (r_ups y)). rewrite <- app_assoc, firstn_skipn. exact Q.
  - exists [], qs. rewrite app_nil_r. split; fields; try apply I; auto.
    + rewrite SystemProofs.sent_down_app. apply Forall2_app; [apply I|exact Dn].
    + rewrite SystemProofs.stream_app, app_assoc, (l_down _ _ _ I). reflexivity.
    + intros R. destruct (l_tab _ _ _ I R) as (c & Fc & C & DC). exists c. split; [exact Fc|]. split; intros Q.
      * destruct (C Q) as (k & b & J). exists k, b. apply in_app_iff. auto.
      * destruct (DC Q) as (b & J). exists b. apply in_app_iff. auto.
  - exists qs, []. rewrite app_nil_r. apply link_client; auto. eapply client_chunks; eauto.
  - exists qs, []. rewrite app_nil_r. apply link_client; auto. eapply data_chunks; eauto.
Qed.

Lemma link_reach A D y0 y : fresh PE CE u y0 -> reach PE CE K A D u y0 y -> exists ups downs, link y ups downs.
Proof.
  intros F R. induction R as [|y1 y2 R (ups & downs & I) M]; [exists [], []; apply link_fresh; exact F|].
  destruct (link_move _ _ _ _ _ _ I M) as (qs & qs' & I'). eauto.
Qed.

(** ** What the consumer reads was sent by the producer *)
Lemma good_quiet {M} (dm : N -> bytes -> res M err) sig qs : Forall (good dm sig) qs -> Forall (quiet dm sig) qs.
Proof. apply Forall_impl. intros q (S & m & G). split; [exact S|]. rewrite G. discriminate. Qed.

Lemma read_sent y ups downs h m : link y ups downs -> blen (concat (TsClientTrace.chunks CE (r_ct y))) < 2 ^ 64 ->
  In (TsClientModel.VRead h m) (r_ct y) ->
  exists n p, In (OSend PE u n p true) (r_pt y) /\ h_seq h = n mod 2 ^ 32 /\ TsClientModel.t_get CE (fst (r_down _ K p)) (snd (r_down _ K p)) = Ok m.
Proof.
  intros I L J. destruct (downs_ok _ _ (l_downs _ _ _ I)) as (PK & GD).
  destruct (TsClientTrace.trun_feeds CE _ _ _ (l_run _ _ _ I)) as (FD & _).
  destruct (TsSystemProofs.fed_prefix _ _ _ _ _ _ _ _ FD PK (good_quiet _ _ _ GD) (count_bad_good _ _ _ GD) (l_down _ _ _ I) L) as (j & Q & _).
  assert (W : In (h, m) (flat_map (deliver (TsClientModel.t_get CE) (TsClientModel.t_sig CE)) (firstn j downs))).
  { rewrite <- Q. apply in_app_iff. left. unfold TsClientTrace.reads. apply in_flat_map. exists (TsClientModel.VRead h m). split; [exact J|]. left. reflexivity. }
  destruct (SystemProofs.in_flat_deliver _ _ _ _ _ W) as (q & Hq & Hh & G).
  assert (Hq' : In q downs) by (rewrite <- (firstn_skipn j downs); apply in_app_iff; auto).
  destruct (SystemProofs.forall2_in _ _ _ _ (l_downs _ _ _ I) Hq') as ([n p] & S & ts & ->). cbn [TsSystemModel.frame p_id p_body fst snd] in G.
  exists n, p. split; [apply SystemProofs.in_sent_down; exact S|]. split; [rewrite Hh; reflexivity|exact G].
Qed.
Lemma read_self y ups downs h m v : link y ups downs -> blen (concat (TsClientTrace.chunks CE (r_ct y))) < 2 ^ 64 ->
  In (TsClientModel.VRead h m) (r_ct y) -> TsClientModel.t_self CE m = Some v ->
  exists n w, In (OSend PE u n (PSelf w) true) (r_pt y).
Proof.
  intros I L J S. destruct (read_sent _ _ _ _ _ I L J) as (n & p & W & _ & G). destruct (r_downs_ok _ _ _ OK p) as (_ & _ & m' & G' & D).
  rewrite G in G'. injection G' as <-. destruct p; try (destruct D as (D & _); congruence). eauto.
Qed.
Lemma read_hash y ups downs h m : link y ups downs -> blen (concat (TsClientTrace.chunks CE (r_ct y))) < 2 ^ 64 ->
  In (TsClientModel.VRead h m) (r_ct y) -> TsClientModel.t_hash CE m = Some None ->
  exists n, In (OSend PE u n (PHash true) true) (r_pt y).
Proof.
  intros I L J S. destruct (read_sent _ _ _ _ _ I L J) as (n & p & W & _ & G). destruct (r_downs_ok _ _ _ OK p) as (_ & _ & m' & G' & D).
  rewrite G in G'. injection G' as <-. destruct p; try (destruct D as (D1 & D2); congruence); try (destruct D as (D1 & D2 & _); congruence).
  destruct D as (_ & e & D & Q). rewrite S in D. injection D as <-. destruct valid; [eauto|]. destruct Q as (Q & _). discriminate (Q eq_refl).
Qed.

(** ** What the producer knows when a chunk of [u] arrives *)
Section Knows.
Variables (y : xsys) (ups downs : list packet) (c : consumer PE).
Hypothesis I : link y ups downs.
Hypothesis PL : polite (r_ct y).
Hypothesis L : blen (concat (TsClientTrace.chunks CE (r_ct y))) < 2 ^ 64.
Hypothesis FL : flags (r_pt y) c.

Lemma knows_fine h m : In (h, m) (flat_map up_deliver ups) -> SystemServer.fine PE (has_key PE c) (c_hash PE c) m.
Proof.
  intros J. destruct (SystemProofs.in_flat_deliver _ _ _ _ _ J) as (q & Q & _ & G).
  destruct (SystemProofs.forall2_in _ _ _ _ (l_ups _ _ _ I) Q) as ([a n] & _ & w & ts & CA & ->). cbn [TsSystemModel.frame p_id p_body fst snd] in G, CA.
  destruct (r_ups_ok _ _ _ OK a w) as (_ & _ & m' & G' & D). rewrite G in G'. injection G' as <-. unfold SystemServer.fine.
  assert (US : match w with TsClientModel.WReq _ _ | TsClientModel.WBeacon _ _ => True | _ => False end -> c_hash PE c = true).
  { intros W. destruct (in_split _ _ CA) as (p & q & E). pose proof (PL _ _ _ _ E) as R.
    assert (RD : exists v, In (TsClientModel.VReady v) p) by (destruct w; try (elim W; fail); exact R). destruct RD as (v & RD).
    destruct (ready_read _ _ _ (l_run _ _ _ I) v) as (h' & m' & RH & TH); [rewrite E; apply in_app_iff; auto|].
    destruct (read_hash _ _ _ _ _ I L RH TH) as (k & S). eapply SystemServer.g_hash; eauto. }
  destruct w as [auto|v|r o|b o].
  - left. exact D.
  - right. left. destruct D as (D1 & D2). split; [exact D1|]. split; [exact D2|].
    destruct (hash_read _ _ _ (l_run _ _ _ I) _ _ CA) as (h' & m' & RH & TS).
    destruct (read_self _ _ _ _ _ _ I L RH TS) as (k & v' & S). eapply SystemServer.g_self; eauto.
  - right. right. destruct D as (D1 & D2 & _). auto.
  - right. right. destruct D as (D1 & D2 & _). auto.
Qed.
End Knows.

(** ** The producer, if it comes upon bytes of [u] only after the confirmation *)
Record inv (y : xsys) (ups downs : list packet) : Prop := mkInv {
  i_link : link y ups downs;
  i_pol : polite (r_ct y);
  i_good : Good (r_pt y);
  i_idle : idle (r_pt y);
  i_hand : exists rest, flat_map up_deliver ups = handled_by (r_pt y) ++ rest;
  i_serv : r_run y = true -> exists B j,
    at_ease (holds B) (r_pt y) (r_p y) /\
    (j <= length ups)%nat /\ handled_by (r_pt y) = flat_map up_deliver (firstn j ups) /\
    ((forall ok, ~ In (ODisc PE u ok) (r_pt y)) -> B ++ r_ups y = stream (skipn j ups) /\ at_rest B (skipn j ups))
}.

Lemma inv_fresh y : fresh PE CE u y -> inv y [] [].
Proof.
  intros FR. pose proof (link_fresh _ FR) as LK. destruct FR as (R & T & F & C & Ll & X & U & D).
  split; rewrite ?T, ?X, ?U.
  - exact LK.
  - intros [|x p] a w q Q; discriminate Q.
  - apply SystemServer.Good_nil.
  - intros m (pre & h & Q & _). destruct pre; discriminate Q.
  - exists []. reflexivity.
  - intros _. exists [], O. split; [|split; [cbn; lia|split; [reflexivity|split; [reflexivity|exact I]]]].
    split; [|intros m (pre & h & Q & _); destruct pre; discriminate Q].
    exists (consumer_new PE). split; [exact F|]. split; [|intros _; reflexivity].
    split; try (intros; contradiction); try discriminate.
    split; [discriminate|]. intros (ok & []).
Qed.

Lemma inv_server y ups downs e t s' r qs yu' :
  inv y ups downs -> r_run y = true ->
  SystemModel.apart u e \/ (exists d, e = VReceived u d) -> step PE e (r_p y) = (t, (s', r)) ->
  down_packets PE K (sent_down t) qs ->
  (exists gone, gone ++ yu' = stream ups) ->
  Good (r_pt y ++ t) ->
  (exists rest, flat_map up_deliver ups = handled_by (r_pt y ++ t) ++ rest) ->
  match r with
  | PGo _ => exists B j, at_ease (holds B) (r_pt y ++ t) s' /\
     (j <= length ups)%nat /\ handled_by (r_pt y ++ t) = flat_map up_deliver (firstn j ups) /\
     ((forall ok, ~ In (ODisc PE u ok) (r_pt y ++ t)) -> B ++ yu' = stream (skipn j ups) /\ at_rest B (skipn j ups))
  | _ => idle (r_pt y ++ t)
  end ->
  inv (mkXsys PE CE s' (SystemModel.goes r) (r_pt y ++ t) (r_c y) (r_cl y) (r_ct y) yu' (r_downs y ++ stream qs)) ups (downs ++ qs).
Proof.
  intros I R Ap St Dn U G Hn S. split; fields; auto; try apply I.
  - apply (link_server _ _ _ e); auto. apply I.
  - destruct r; auto. destruct S as (B & j & (_ & S) & _). exact S.
  - destruct r as [b|e'|]; try discriminate. intros _. exact S.
Qed.

Lemma inv_client y ups downs l s' es qs yd :
  inv y ups downs -> TsClientModel.fire CE (r_c y) l = Some (s', es) -> patient CE (r_ct y) l ->
  up_packets PE CE K es qs -> concat (TsClientTrace.chunks CE es) ++ yd = r_downs y ->
  inv (mkXsys PE CE (r_p y) (r_run y) (r_pt y) s' (r_cl y ++ [l]) (r_ct y ++ es) (r_ups y ++ stream qs) yd) (ups ++ qs) downs.
Proof.
  intros I F PA U D. split; fields; auto; try apply I.
  - apply link_client; auto. apply I.
  - eapply polite_app; [apply (l_run _ _ _ (i_link _ _ _ I))|exact F|exact PA|apply I].
  - destruct (i_hand _ _ _ I) as (rest & Q). exists (rest ++ flat_map up_deliver qs). rewrite flat_map_app, Q, app_assoc. reflexivity.
  - intros R. destruct (i_serv _ _ _ I R) as (B & j & A & Lj & Hn & S). exists B, j. split; [exact A|].
    split; [rewrite app_length; lia|]. split; [rewrite SystemProofs.firstn_app_le by exact Lj; exact Hn|]. intros ND.
    destruct (S ND) as (S1 & S2). rewrite SystemProofs.skipn_app_le by exact Lj. rewrite SystemProofs.stream_app. split; [rewrite app_assoc, S1; reflexivity|].
    destruct (skipn j ups) as [|q l0]; [|exact S2]. cbn in S1. apply app_eq_nil in S1. destruct S1 as (-> & _).
    destruct qs as [|q qs]; [exact Logic.I|]. cbn [at_rest app]. pose proof (SystemProofs.wire_pos q). unfold blen at 1. cbn. lia.
Qed.

Lemma inv_move y ups downs y' : inv y ups downs -> blen (concat (TsClientTrace.chunks CE (r_ct y))) < 2 ^ 64 ->
  move PE CE K (patient CE) (confirmed PE u) u y y' -> exists ups' downs', inv y' ups' downs'.
Proof.
  intros I BD M. pose proof (i_link _ _ _ I) as LK.
  destruct M as [y e t s' r qs R Ap St Dn|y n t s' r qs R DD Ln St Dn|y n x ok qs t Dn|y l s' es qs O O2 F U|y n fuel s' es qs l Ln F U].
  - exists ups, (downs ++ qs). destruct (i_serv _ _ _ I R) as (B & j & A & L & Hn & S).
    pose proof (SystemServer.H_step PE u B e Ap (r_pt y) (r_p y) (i_good _ _ _ I) A) as W.
    pose proof (SystemProofs.step_unhandled PE u e Ap (r_p y)) as Z.
    apply (ProducerProofs.wp_elim _ _ _ _ _ _ _ W) in St as W'. apply (ProducerProofs.wp_elim _ _ _ _ _ _ _ Z) in St as Z'. cbv beta in W', Z'.
    destruct W' as (G & Q). apply (inv_server _ _ _ e); auto.
    + apply LK.
    + rewrite SystemProofs.handled_by_app, Z', app_nil_r. apply I.
    + destruct r; auto. exists B, j. split; [exact Q|]. split; [exact L|]. rewrite SystemProofs.handled_by_app, Z', app_nil_r. split; [exact Hn|].
      intros ND. apply S. intros ok J. apply (ND ok). apply in_app_iff. auto.
  - exists ups, (downs ++ qs). destruct (i_serv _ _ _ I R) as (B & j & A & L & Hn & S).
    destruct (l_up _ _ _ LK) as (gone & GU).
    destruct A as ((c & Fc & Fl & Hc) & Id).
    assert (CF : c_conf PE c = true) by (destruct DD as (k & b & J); eapply SystemServer.g_conf; eauto).
    destruct (ups_ok _ _ _ (l_ups _ _ _ LK)) as (PK & GOOD).
    (* what the buffer makes of the chunk *)
    assert (CH : exists B' k, (k <= length (skipn j ups))%nat /\
      ((forall ok, ~ In (ODisc PE u ok) (r_pt y)) ->
       chunk (e_get PE) (e_sig PE) (mkBuf B []) (firstn n (r_ups y)) = (COk, mkBuf B' (flat_map up_deliver (firstn k (skipn j ups)))) /\
       B' ++ skipn n (r_ups y) = stream (skipn k (skipn j ups)) /\ at_rest B' (skipn k (skipn j ups)))).
    { destruct (c_disc PE c) eqn:DC.
      { exists [], O. split; [lia|]. intros ND. destruct (proj1 (SystemServer.g_disc _ _ _ _ Fl) DC) as (ok & J). elim (ND ok J). }
      assert (ND : forall ok, ~ In (ODisc PE u ok) (r_pt y)).
      { intros ok J. assert (c_disc PE c = true) by (apply (SystemServer.g_disc _ _ _ _ Fl); eauto). congruence. }
      destruct (S ND) as (S1 & S2).
      destruct (chunk_spec (e_get PE) (e_sig PE) (skipn j ups) B [] (firstn n (r_ups y)) (skipn n (r_ups y)) [])
        as (o & b' & q' & k & C & Kl & C1 & C2 & NP & CS).
      { apply Forall_skipn; exact PK. } { apply Forall_skipn, SystemProofs.goods_calm; exact GOOD. } { exact SystemProofs.incomplete_nil. }
      { rewrite <- app_assoc, firstn_skipn, app_nil_r. exact S1. }
      rewrite app_nil_r in C1. cbn [app] in C2. exists b', k. split; [exact Kl|]. intros _. destruct CS as [(-> & _ & AR)|(_ & CB)].
      - rewrite C, C2. auto.
      - exfalso. rewrite count_bad_good in CB; [discriminate CB|]. apply Forall_forall. intros z Hz. rewrite Forall_forall in GOOD. apply GOOD.
        rewrite <- (firstn_skipn j ups). apply in_app_iff. right. rewrite <- (firstn_skipn k (skipn j ups)). apply in_app_iff. auto. }
    destruct CH as (B' & k & Kl & CH). rewrite skipn_length in Kl.
    assert (FINE : Forall (fun x => SystemServer.fine PE (has_key PE c) (c_hash PE c) (snd x)) (flat_map up_deliver (firstn k (skipn j ups)))).
    { apply Forall_forall. intros [h m] J. cbn [snd]. apply (knows_fine y ups downs c LK (i_pol _ _ _ I) BD Fl h m).
      rewrite <- (firstn_skipn j ups), flat_map_app. apply in_app_iff. right.
      rewrite <- (firstn_skipn k (skipn j ups)), flat_map_app. apply in_app_iff. left. exact J. }
    assert (W : ProducerProofs.wp PE (step PE (VReceived u (firstn n (r_ups y)))) (r_p y) (fun t s' r =>
        Good (r_pt y ++ t) /\ match r with PGo a => at_ease (holds B') (r_pt y ++ t) s' | _ => idle (r_pt y ++ t) end)).
    { apply (SystemServer.H_step_received PE u (firstn n (r_ups y)) (c_hash PE c) B' c (flat_map up_deliver (firstn k (skipn j ups))) (r_pt y) (r_p y) (i_good _ _ _ I)).
      split; [exact Fc|]. split; [exact Fl|]. split; [exact Id|]. split; [exact CF|]. split; [auto|]. intros DC.
      split; [|exact FINE]. rewrite (Hc DC). apply CH. intros ok J.
      assert (c_disc PE c = true) by (apply (SystemServer.g_disc _ _ _ _ Fl); eauto). congruence. }
    apply (ProducerProofs.wp_elim _ _ _ _ _ _ _ W) in St as W'. cbv beta in W'. destruct W' as (G & Q).
    (* what is handled *)
    assert (HD : exists k', (k' <= k)%nat /\ handled_by t = flat_map up_deliver (firstn k' (skipn j ups)) /\
       ((forall ok, ~ In (ODisc PE u ok) (r_pt y)) -> r = PGo true -> k' = k)).
    { destruct (c_disc PE c) eqn:DC.
      { exists O. split; [lia|]. split.
        - rewrite (SystemProofs.received_deaf PE u _ _ _ _ _ _ Fc CF DC St). reflexivity.
        - intros ND. destruct (proj1 (SystemServer.g_disc _ _ _ _ Fl) DC) as (ok & J). elim (ND ok J). }
      destruct CH as (CQ & _ & _).
      { intros ok J. assert (c_disc PE c = true) by (apply (SystemServer.g_disc _ _ _ _ Fl); eauto). congruence. }
      rewrite <- (Hc DC) in CQ.
      destruct (ProducerStop.received_handled PE _ _ _ _ _ _ _ _ Fc CF DC CQ St) as (k0 & H1 & H2). cbn [rb_queue] in H1, H2.
      assert (GK : Forall (good (e_get PE) (e_sig PE)) (firstn k (skipn j ups))) by (apply SystemProofs.forall_firstn, Forall_skipn; exact GOOD).
      pose proof (SystemProofs.handled_is PE u _ _ H1) as H3. rewrite (proj1 (SystemProofs.deliver_firstn PE k0 _ GK)), firstn_firstn in H3.
      exists (Nat.min k0 k). split; [lia|]. split; [exact H3|]. intros _ Rt. specialize (H2 Rt). apply (f_equal (@length _)) in H2.
      rewrite firstn_length, (proj2 (SystemProofs.deliver_firstn PE O _ GK)), firstn_length, skipn_length in H2. lia. }
    destruct HD as (k' & Kl' & HB & HK).
    assert (HJ : handled_by (r_pt y ++ t) = flat_map up_deliver (firstn (j + k') ups)).
    { rewrite SystemProofs.handled_by_app, Hn, HB, <- flat_map_app. f_equal.
      rewrite <- (firstn_skipn j ups) at 3. rewrite firstn_app. rewrite (firstn_all2 (firstn j ups)); rewrite firstn_length; [|lia].
      f_equal. f_equal. lia. }
    apply (inv_server _ _ _ (VReceived u (firstn n (r_ups y)))); eauto.
    + exists (gone ++ firstn n (r_ups y)). rewrite <- app_assoc, firstn_skipn. exact GU.
    + exists (flat_map up_deliver (skipn (j + k') ups)). rewrite HJ, <- flat_map_app, firstn_skipn. reflexivity.
    + destruct r as [b|e|]; auto. exists B', (j + k')%nat. split; [exact Q|]. split; [lia|]. split; [exact HJ|]. intros ND.
      assert (ND' : forall ok, ~ In (ODisc PE u ok) (r_pt y)) by (intros ok J; apply (ND ok); apply in_app_iff; auto).
      assert (Rt : PGo b = PGo true) by (destruct b; [reflexivity|elim (SystemProofs.received_goes PE u _ _ _ _ _ St eq_refl)]).
      rewrite (HK ND' Rt). destruct (CH ND') as (_ & C1 & C2). rewrite <- skipn_skipn. split; [exact C1|exact C2].
  - exists ups, (downs ++ qs).
    assert (AL : Forall (SystemServer.alien PE u) t) by (repeat constructor).
    assert (NI : forall m, SystemServer.due PE u (r_pt y) m -> exists o t', t = o :: t' /\ SystemServer.served PE u m o) by (intros m Dm; elim (i_idle _ _ _ I m Dm)).
    destruct (SystemServer.aliens_good PE u t (r_pt y) (i_good _ _ _ I) AL NI) as (G & Id).
    assert (HB : handled_by t = []) by reflexivity.
    split; fields; auto; try apply I.
    + split; fields; try apply LK; auto.
      * rewrite SystemProofs.sent_down_app. apply Forall2_app; [apply LK|exact Dn].
      * rewrite SystemProofs.stream_app, app_assoc, (l_down _ _ _ LK). reflexivity.
      * intros R. destruct (l_tab _ _ _ LK R) as (c & Fc & C & DC). exists c. split; [exact Fc|]. split; intros Q.
        -- destruct (C Q) as (k & b & J). exists k, b. apply in_app_iff. auto.
        -- destruct (DC Q) as (b & J). exists b. apply in_app_iff. auto.
    + rewrite SystemProofs.handled_by_app, HB, app_nil_r. apply I.
    + intros R. destruct (i_serv _ _ _ I R) as (B & j & ((c & Fc & Fl & Hc) & _) & L & Hn & S). exists B, j. split.
      { split; [|exact Id]. exists c. split; [exact Fc|]. split; [apply SystemServer.flags_alien; assumption|exact Hc]. }
      split; [exact L|]. rewrite SystemProofs.handled_by_app, HB, app_nil_r. split; [exact Hn|]. intros ND. apply S. intros ok' J. apply (ND ok'). apply in_app_iff. auto.
  - exists (ups ++ qs), downs. apply inv_client; auto. eapply client_chunks; eauto.
  - exists (ups ++ qs), downs. apply inv_client; auto; [exact Logic.I|]. eapply data_chunks; eauto.
Qed.

Lemma chunks_grow y y' A D : move PE CE K A D u y y' -> blen (concat (TsClientTrace.chunks CE (r_ct y))) <= blen (concat (TsClientTrace.chunks CE (r_ct y'))).
Proof.
  assert (Z : forall es y0, blen (concat (TsClientTrace.chunks CE (r_ct y0))) <= blen (concat (TsClientTrace.chunks CE (r_ct y0 ++ es)))).
  { intros es y0. unfold TsClientTrace.chunks. rewrite flat_map_app, concat_app, blen_app. lia. }
  intros M. destruct M; fields; try lia; apply Z.
Qed.

Theorem inv_reach y0 y : fresh PE CE u y0 -> reach PE CE K (patient CE) (confirmed PE u) u y0 y ->
  blen (concat (TsClientTrace.chunks CE (r_ct y))) < 2 ^ 64 -> exists ups downs, inv y ups downs.
Proof.
  intros F R. induction R as [|y1 y2 R IH M]; intros BD; [exists [], []; apply inv_fresh; exact F|].
  pose proof (chunks_grow _ _ _ _ M). destruct IH as (ups & downs & I); [lia|]. eapply inv_move; eauto. lia.
Qed.

(** ** A consumer that was asked to leave is not heard any more *)
Definition deaf (y : xsys) : Prop := r_run y = true -> exists c, find PE u (s_tab PE (r_p y)) = Some c /\ c_disc PE c = true.
Lemma disconnect_disc s c : find PE u (s_tab PE s) = Some c ->
  ProducerProofs.wp PE (disconnect PE u) s (fun t s' _ => (c_disc PE c = false -> exists ok, In (ODisc PE u ok) t) /\
    exists c', find PE u (s_tab PE s') = Some c' /\ c_disc PE c' = true).
Proof.
  intros F. unfold disconnect. apply ProducerStop.wp_bind_look. rewrite F.
  destruct (c_disc PE c) eqn:DC; [split; [discriminate|exists c; auto]|].
  eapply ProducerStop.wp_bind_upd; [exact F|].
  match goal with |- ProducerProofs.wp PE _ ?z _ => set (z1 := z); assert (F1 : find PE u (s_tab PE z1) = Some (set_disc PE c)) by (eapply ProducerProofs.find_put_same; exact F) end.
  clearbody z1. apply ProducerProofs.wp_bind. unfold ProducerProofs.wp at 1, world. destruct (w_disconnect PE (s_w PE z1) u) as [w ok]. cbn [fst snd app].
  apply ProducerStop.wp_bind_emit. unfold ProducerProofs.wp.
  destruct ok; (split; [intros _; eexists; left; reflexivity|exists (set_disc PE c); auto]).
Qed.
Lemma expel_disc e s c : find PE u (s_tab PE s) = Some c ->
  ProducerProofs.wp PE (expel PE u e) s (fun t s' _ => (c_disc PE c = false -> exists ok, In (ODisc PE u ok) t) /\
    exists c', find PE u (s_tab PE s') = Some c' /\ c_disc PE c' = true).
Proof.
  intros F. unfold expel. apply ProducerProofs.wp_bind. eapply ProducerProofs.wp_mono; [exact (disconnect_disc s c F)|]. cbv beta.
  intros t s1 [a|x|] (D & c1 & F1 & D1); [|eauto|eauto].
  eapply ProducerProofs.wp_mono; [exact (same_ident_err u e s1 c1 F1)|]. cbv beta. intros t2 s2 r2 (c2 & F2 & (_ & N & _)). split; [|exists c2; auto].
  intros W. destruct (D W) as (ok & J). exists ok. apply in_app_iff. auto.
Qed.

Lemma hasty d s c t s' r : find PE u (s_tab PE s) = Some c -> c_conf PE c = false -> step PE (VReceived u d) s = (t, (s', r)) ->
  handled_by t = [] /\ (c_disc PE c = false -> exists ok, In (ODisc PE u ok) t) /\
  (SystemModel.goes r = true -> exists c', find PE u (s_tab PE s') = Some c' /\ c_disc PE c' = true).
Proof.
  intros F C St.
  assert (Q : step PE (VReceived u d) s = bindp PE (expel PE u ENotConfirmed) (fun _ => ret PE true) s).
  { cbn [step]. unfold process_received_data. unfold bindp at 1 2. unfold look. rewrite F, C. cbn [negb]. unfold bindp at 1. destruct (expel PE u ENotConfirmed s) as [t1 [s1 [a|x|]]]; reflexivity. }
  rewrite Q in St. unfold bindp in St. destruct (expel PE u ENotConfirmed s) as [t1 [s1 r1]] eqn:X.
  destruct (ProducerProofs.wp_elim _ _ _ _ _ _ _ (expel_disc ENotConfirmed s c F) X) as (D & c1 & F1 & D1).
  pose proof (ProducerProofs.wp_elim _ _ _ _ _ _ _ (SystemProofs.muted_unhandled PE u _ (ProducerStop.mute_expel PE u ENotConfirmed) s) X) as H.
  cbv beta in H. destruct r1 as [a|x|]; cbn [ret] in St; injection St as <- <- <-; rewrite ?app_nil_r.
  - split; [exact H|]. split; [exact D|]. eauto.
  - split; [exact H|]. split; [exact D|]. discriminate.
  - split; [exact H|]. split; [exact D|]. discriminate.
Qed.

Lemma deaf_move A D y y' : deaf y -> move PE CE K A D u y y' -> deaf y' /\ handled_by (r_pt y') = handled_by (r_pt y).
Proof.
  intros DF M. destruct M as [y e t s' r qs R Ap St Dn|y n t s' r qs R DD Ln St Dn|y n x ok qs t Dn|y l s' es qs O O2 F U|y n fuel s' es qs l Ln F U].
  - destruct (DF R) as (c & Fc & DC). pose proof (ProducerProofs.wp_elim _ _ _ _ _ _ _ (keeps_step e (or_introl Ap) (r_p y) c Fc) St) as W. cbv beta in W. split.
    + intros G. fields. destruct r; try discriminate G. destruct W as (c' & F' & _ & N & _). eauto.
    + fields. rewrite SystemProofs.handled_by_app. rewrite (ProducerProofs.wp_elim _ _ _ _ _ _ _ (SystemProofs.step_unhandled PE u e Ap (r_p y)) St). apply app_nil_r.
  - destruct (DF R) as (c & Fc & DC).
    assert (KS : keeps (step PE (VReceived u (firstn n (r_ups y))))) by (apply keeps_step; eauto).
    pose proof (ProducerProofs.wp_elim _ _ _ _ _ _ _ (KS (r_p y) c Fc) St) as W. cbv beta in W. split.
    + intros G. fields. destruct r; try discriminate G. destruct W as (c' & F' & _ & N & _). eauto.
    + fields. rewrite SystemProofs.handled_by_app. destruct (c_conf PE c) eqn:CF.
      * rewrite (SystemProofs.received_deaf PE u _ _ _ _ _ _ Fc CF DC St). apply app_nil_r.
      * rewrite (proj1 (hasty _ _ _ _ _ _ Fc CF St)). apply app_nil_r.
  - split; [exact DF|]. fields. rewrite SystemProofs.handled_by_app. apply app_nil_r.
  - split; [exact DF|reflexivity].
  - split; [exact DF|reflexivity].
Qed.
Lemma deaf_reach A D y y' : deaf y -> reach PE CE K A D u y y' -> deaf y' /\ handled_by (r_pt y') = handled_by (r_pt y).
Proof.
  intros DF R. induction R as [|y1 y2 R (D1 & H1) M]; [auto|]. destruct (deaf_move _ _ _ _ D1 M) as (D2 & H2). split; [exact D2|congruence].
Qed.

(** ** Answers *)
Lemma reasoned_reach A D y0 y : fresh PE CE u y0 -> reach PE CE K A D u y0 y -> SystemAnswers.reasoned PE (r_pt y).
Proof.
  intros F R. induction R as [|y1 y2 R IH M].
  - destruct F as (_ & -> & _). apply SystemAnswers.reasoned_nil.
  - destruct M as [y e t s' r qs Rn Ap St Dn|y n t s' r qs Rn DD Ln St Dn|y n x ok qs t Dn|y l s' es qs O O2 F' U|y n fuel s' es qs l Ln F' U]; fields; auto.
    + apply SystemAnswers.reasoned_app; [exact IH|]. pose proof (SystemAnswers.fair_step PE e (r_p y)) as W. apply (ProducerProofs.wp_elim _ _ _ _ _ _ _ W) in St. exact St.
    + apply SystemAnswers.reasoned_app; [exact IH|].
      pose proof (SystemAnswers.fair_step PE (VReceived u (firstn n (r_ups y))) (r_p y)) as W. apply (ProducerProofs.wp_elim _ _ _ _ _ _ _ W) in St. exact St.
    + apply SystemAnswers.reasoned_app; [exact IH|]. apply SystemAnswers.reasoned_one. exact I.
Qed.

Lemma num_small ls s tr a n : TsClientModel.trun CE ls s tr -> In (TsClientModel.VNum a n TsClientModel.SOk) tr -> n mod 2 ^ 32 = n /\ n <> 0.
Proof.
  intros R IN. apply in_split in IN as (p & q & Q).
  destruct (PropTsClient.C78_numbers_are_counted CE _ _ _ _ _ _ _ _ R Q) as (H & L).
  split; [apply N.mod_small; apply L; reflexivity|]. lia.
Qed.
Lemma num_inj ls s tr a b n r r' : TsClientModel.trun CE ls s tr -> In (TsClientModel.VNum a n r) tr -> In (TsClientModel.VNum b n r') tr -> a = b.
Proof.
  intros R H1 H2. apply in_split in H1 as (p & q & Q). rewrite Q in H2. apply in_app_iff in H2 as [H2|[H2|H2]].
  - apply in_split in H2 as (p1 & p2 & ->). rewrite <- app_assoc in Q.
    pose proof (PropTsClient.C78_numbers_differ CE _ _ _ _ _ _ _ _ _ _ _ _ R Q). lia.
  - injection H2. intros. subst. reflexivity.
  - apply in_split in H2 as (p1 & p2 & ->).
    pose proof (PropTsClient.C78_numbers_differ CE _ _ _ _ _ _ _ _ _ _ _ _ R Q). lia.
Qed.
Lemma call_act ls s tr a w : TsClientModel.trun CE ls s tr -> In (TsClientModel.VCall a w) tr -> exists g, TsClientModel.c_act s a = Some (w, g).
Proof.
  intros R IN. pose proof (TsClientProofs.i_shape CE _ _ (TsClientProofs.trun_inv CE _ _ _ R) a) as S.
  apply (TsClientTrace.in_life CE a) in IN; [|apply Nat.eqb_refl].
  destruct (TsClientModel.c_act s a) as [[w' g]|]; [|cbn [TsClientProofs.shape] in S; rewrite S in IN; elim IN].
  exists g. f_equal. f_equal. destruct g as [n|n m|v|]; cbn [TsClientProofs.shape] in S.
  - rewrite S in IN. destruct IN as [IN|[IN|[]]]; [injection IN as ->; reflexivity|discriminate IN].
  - rewrite S in IN. destruct IN as [IN|[IN|[IN|[]]]]; [injection IN as ->; reflexivity|discriminate IN|discriminate IN].
  - destruct S as (n & m & _ & _ & S). rewrite S in IN.
    destruct IN as [IN|[IN|[IN|[IN|[]]]]]; [injection IN as ->; reflexivity|discriminate IN|discriminate IN|discriminate IN].
  - destruct S as [(k & e & _ & _ & S)|[(n & r & e & _ & _ & S)|(n & m & r & _ & S)]]; rewrite S in IN;
      (destruct IN as [IN|IN]; [injection IN as ->; reflexivity|]); repeat destruct IN as [IN|IN]; try discriminate IN; elim IN.
Qed.

(** What the producer handles was sent by a promise of the consumer. *)
Lemma handled_sent y ups downs h m : inv y ups downs -> In (OHandle PE u h m) (r_pt y) ->
  exists a w, In (TsClientModel.VCall a w) (r_ct y) /\ In (TsClientModel.VNum a (h_seq h) TsClientModel.SOk) (r_ct y) /\
    h_seq h mod 2 ^ 32 = h_seq h /\ e_get PE (fst (r_up _ K a w)) (snd (r_up _ K a w)) = Ok m.
Proof.
  intros I J. pose proof (i_link _ _ _ I) as LK.
  assert (H : In (h, m) (handled_by (r_pt y))).
  { unfold SystemModel.handled_by. apply in_flat_map. eexists. split; [exact J|]. cbv beta iota. rewrite N.eqb_refl. left. reflexivity. }
  destruct (i_hand _ _ _ I) as (rest & Q).
  assert (W : In (h, m) (flat_map up_deliver ups)) by (rewrite Q; apply in_app_iff; auto).
  destruct (SystemProofs.in_flat_deliver _ _ _ _ _ W) as (q & Hq & -> & G).
  destruct (SystemProofs.forall2_in _ _ _ _ (l_ups _ _ _ LK) Hq) as ([a n] & S & w & ts & CA & ->). cbn [TsSystemModel.frame p_id p_body fst snd] in G, CA.
  apply TsSystemProofs.in_sent_up in S. destruct (num_small _ _ _ _ _ (l_run _ _ _ LK) S) as (NS & _).
  exists a, w. split; [exact CA|].
  cbn [fst snd]. assert (Z : h_seq (hdr (TsSystemModel.frame (TsClientModel.t_sig CE) (r_up PE K a w) n ts)) = n) by exact NS. rewrite Z. auto.
Qed.

(** A message that carries a number of the consumer answers the message with this
    number. *)
Lemma own y ups downs h m : inv y ups downs -> SystemAnswers.reasoned PE (r_pt y) ->
  blen (concat (TsClientTrace.chunks CE (r_ct y))) < 2 ^ 64 ->
  In (TsClientModel.VRead h m) (r_ct y) -> h_seq h <> 0 ->
  (forall k x, In (OSend PE u k (PBroadcast x) true) (r_pt y) -> k mod 2 ^ 32 <> h_seq h) ->
  exists a w h' m' p t0 l t2, In (TsClientModel.VCall a w) (r_ct y) /\ In (TsClientModel.VNum a (h_seq h) TsClientModel.SOk) (r_ct y) /\
    r_pt y = t0 ++ OHandle PE u h' m' :: l ++ OSend PE u (h_seq h) p true :: t2 /\ h_seq h' = h_seq h /\
    e_get PE (fst (r_up _ K a w)) (snd (r_up _ K a w)) = Ok m' /\ TsClientModel.t_get CE (fst (r_down _ K p)) (snd (r_down _ K p)) = Ok m /\
    match p with
    | PSelf v => l = [] /\ v = u /\ e_self PE m' <> None
    | PHash b => l = [] /\ exists pw, e_hash PE m' = Some pw /\ b = hash_valid PE pw
    | PBeacon => exists b ids, l = [OBeacon PE u b m' ids true] /\ e_request PE m' = None /\ e_beacon PE m' = Some b
    | PAnswer x => exists r ids res, l = [OCall PE u r m' ids res] /\ e_request PE m' = Some r /\ x = ProducerMore.answer_of PE res
    | _ => False
    end.
Proof.
  intros I RS L J NZ NB. pose proof (i_link _ _ _ I) as LK.
  destruct (read_sent _ _ _ _ _ LK L J) as (n & p & S & Hn & G). destruct (in_split _ _ S) as (t1 & t2 & E).
  pose proof (RS _ _ _ _ _ _ E) as W.
  assert (GO : forall t0 h' m' l, t1 = t0 ++ OHandle PE u h' m' :: l -> n = h_seq h' ->
    exists a w, In (TsClientModel.VCall a w) (r_ct y) /\ In (TsClientModel.VNum a (h_seq h) TsClientModel.SOk) (r_ct y) /\
    r_pt y = t0 ++ OHandle PE u h' m' :: l ++ OSend PE u (h_seq h) p true :: t2 /\ h_seq h' = h_seq h /\
    e_get PE (fst (r_up _ K a w)) (snd (r_up _ K a w)) = Ok m').
  { intros t0 h' m' l -> Q. destruct (handled_sent _ _ _ h' m' I) as (a & w & H1 & H2 & H3 & H4).
    { rewrite E. rewrite !in_app_iff. cbn [In]. tauto. }
    assert (Q' : h_seq h' = h_seq h) by (rewrite Hn, Q; auto). exists a, w. rewrite <- Q'. split; [exact H1|]. split; [exact H2|].
    split; [rewrite E, <- app_assoc, Q; reflexivity|]. auto. }
  destruct p as [v|b| | |x|x]; cbn [SystemAnswers.reason] in W.
  - destruct W as (Wv & t0 & h' & m' & Q & Qn & C). destruct (GO t0 h' m' [] Q Qn) as (a & w & H1 & H2 & H3 & H4 & H5).
    exists a, w, h', m', (PSelf v), t0, [], t2. do 6 (split; [assumption|]). auto.
  - destruct W as (t0 & h' & m' & pw & Q & Qn & C). destruct (GO t0 h' m' [] Q Qn) as (a & w & H1 & H2 & H3 & H4 & H5).
    exists a, w, h', m', (PHash b), t0, [], t2. do 6 (split; [assumption|]). split; [reflexivity|]. exists pw. exact C.
  - subst n. elim NZ. rewrite Hn. reflexivity.
  - destruct W as (t0 & h' & m' & b & ids & Q & Qn & C). destruct (GO t0 h' m' _ Q Qn) as (a & w & H1 & H2 & H3 & H4 & H5).
    eexists a, w, h', m', PBeacon, t0, _, t2. split; [exact H1|]. split; [exact H2|]. split; [exact H3|]. do 3 (split; [assumption|]). exists b, ids. auto.
  - destruct W as (t0 & h' & m' & r & ids & res & Q & Qn & C). destruct (GO t0 h' m' _ Q Qn) as (a & w & H1 & H2 & H3 & H4 & H5).
    eexists a, w, h', m', (PAnswer x), t0, _, t2. split; [exact H1|]. split; [exact H2|]. split; [exact H3|]. do 3 (split; [assumption|]). exists r, ids, res. auto.
  - elim (NB n x S). symmetry. exact Hn.
Qed.
End Proofs.
