(** What becomes of a generated Rust client that talks to a generated TypeScript server
    (C97).  [fresh u o y0]: the server has accepted the connection of client [u]
    (object [o]); [reach A u y0 y]: an execution of the two from there, with whatever
    other clients the server has, in which the client's application makes only the
    steps that [A] allows.  All theorems are about all executions. *)
From Coq Require Import List NArith Arith Bool Lia.
From Coq Require Import Strings.Byte.
From Verif Require Import Bytes WireModel FrameModel FrameProofs TsModel TsReader.
From Verif Require ConsumerModel ConsumerSpec ConsumerTrace SystemModel SystemProofs TsSystemModel PropSystem ProducerModel.
From Verif Require Import TsServerModel TsServerProofs TsServerTrace PropTsServer TsSystemRest MixModel MixProofs.
Import ListNotations.
Open Scope N_scope.

Section Statements.
Variable QE : qenv.
Variable CE : ConsumerModel.cenv.
Variable K : mcodec QE CE.
Hypothesis OK : compatible QE CE K.
Local Notation f_q := (f_q QE CE). Local Notation f_qt := (f_qt QE CE). Local Notation f_c := (f_c QE CE).
Local Notation f_ls := (f_ls QE CE). Local Notation f_ct := (f_ct QE CE). Local Notation f_uw := (f_uw QE CE). Local Notation f_dw := (f_dw QE CE).

(** The client never becomes connected: its application is never told so, and neither
    its self key nor its hashes are ever sent - the client waits for a confirmation
    that a TypeScript server does not send. *)
Theorem C97_never_connected : forall A u o y0 y,
  fresh QE CE u o y0 -> reach QE CE K A u y0 y ->
  ~ In (ConsumerModel.XEmit CE (ConsumerModel.EConnected CE)) (f_ct y) /\
  forall a n p ok, In (ConsumerModel.XSend CE a n p ok) (f_ct y) ->
    match p with ConsumerModel.PUser _ _ _ => True | _ => False end.
Proof.
  intros A u o y0 y FR R. destruct (inv_reach QE CE K u o A y0 y FR R) as (ups & downs & I).
  pose proof (inv_exec _ _ _ _ _ _ _ _ I) as X. split.
  - intros J. destruct (SystemProofs.connected_in CE _ X J) as ((h & m & IN & C) & _).
    rewrite (taken_plain _ _ _ OK _ _ _ _ _ _ _ I IN) in C. discriminate C.
  - intros a n p ok J. destruct (in_split _ _ J) as (t1 & t2 & Q). destruct (ConsumerSpec.at_send CE _ X _ _ _ _ _ _ Q) as (P & _).
    assert (NS : ~ In (ConsumerModel.XSpawn CE a) t1).
    { intros W. apply (no_spawn _ _ _ OK _ _ _ _ _ a I). rewrite Q. apply in_app_iff. auto. }
    destruct p; cbn [ConsumerTrace.paid] in P; [|destruct P as (_ & S & _)|exact Logic.I]; [|elim (NS S)]. destruct P as (_ & S). elim (NS S).
Qed.

(** If the client's application waits to be told of the connection, the client never
    sends anything. *)
Theorem C97_patient_is_silent : forall u o y0 y,
  fresh QE CE u o y0 -> reach QE CE K (SystemModel.patient CE) u y0 y ->
  (forall a n p ok, ~ In (ConsumerModel.XSend CE a n p ok) (f_ct y)) /\ f_uw y = [].
Proof.
  intros u o y0 y FR R.
  assert (POL : SystemProofs.polite CE (f_ct y)).
  { destruct FR as (? & ? & ? & _ & _ & _ & _ & _ & _ & HCT & _). revert HCT. clear - R. intros HCT.
    induction R as [|y1 y2 R IH M]; [rewrite HCT; intros t1 a k t2 Q; destruct t1; discriminate Q|].
    destruct M as [y l s' es qs AP F P|y n fuel s' es qs L F P|y n x qs P|y l s' t qs OW AL F P|y n s' t qs l0 L F P]; try exact IH;
      cbn [MixModel.f_ct]; (apply SystemProofs.polite_app; [exact IH|]);
      intros l1 a k l2 Q; pose proof (SystemProofs.fire_call CE _ _ _ _ F _ _ _ _ Q) as W.
    - subst l. exact AL.
    - discriminate W. }
  destruct (inv_reach QE CE K u o _ y0 y FR R) as (ups & downs & I).
  pose proof (inv_exec _ _ _ _ _ _ _ _ I) as X.
  assert (NS : forall a n p ok, ~ In (ConsumerModel.XSend CE a n p ok) (f_ct y)).
  { intros a n p ok J. destruct (SystemProofs.sent_in CE _ X POL _ _ _ _ J) as ((h & m & IN & C) & _).
    rewrite (taken_plain _ _ _ OK _ _ _ _ _ _ _ I IN) in C. discriminate C. }
  split; [exact NS|].
  assert (U : SystemModel.sent_up CE (f_ct y) = []).
  { destruct (SystemModel.sent_up CE (f_ct y)) as [|[n p] l] eqn:Q; [reflexivity|].
    assert (J : In (n, p) (SystemModel.sent_up CE (f_ct y))) by (rewrite Q; left; reflexivity).
    apply SystemProofs.in_sent_up in J as (a & J). elim (NS _ _ _ _ J). }
  revert U. destruct FR as (? & ? & ? & _ & _ & _ & _ & _ & _ & _ & HU & _). clear - R HU.
  induction R as [|y1 y2 R IH M]; [intros _; exact HU|].
  destruct M as [y l s' es qs AP F P|y n fuel s' es qs L F P|y n x qs P|y l s' t qs OW AL F P|y n s' t qs l0 L F P];
    cbn [MixModel.f_ct MixModel.f_uw]; intros U; auto.
  - rewrite (IH U). apply skipn_nil.
  - rewrite SystemProofs.sent_up_app in U. apply app_eq_nil in U as (U1 & U2). rewrite U2 in P. inversion P; subst. rewrite (IH U1). reflexivity.
  - rewrite SystemProofs.sent_up_app in U. apply app_eq_nil in U as (U1 & U2). rewrite U2 in P. inversion P; subst. rewrite (IH U1). reflexivity.
Qed.

(** An application that does not wait gains nothing: no handler of the server is ever
    called for the client, and each message of the client that the server reads is
    answered by the request to leave.  (Partial: as long as less than 2^64 bytes have
    come.) *)
Theorem C97_never_served_partial : forall A u o y0 y,
  fresh QE CE u o y0 -> reach QE CE K A u y0 y -> blen (concat (chunks QE o (f_qt y))) < 2 ^ 64 ->
  (forall t h m, ~ In (OStart t o h m) (f_qt y)) /\
  forall p h m q, f_qt y = p ++ ORead o h m :: q -> exists q', q = OAsk u :: q'.
Proof.
  intros A u o y0 y FR R L. destruct (inv_reach QE CE K u o A y0 y FR R) as (ups & downs & I).
  assert (RD : forall h m, In (ORead o h m) (f_qt y) -> q_self QE m = false /\ q_hash QE m = None /\ q_for QE m <> None).
  { intros h m IN. destruct (read_up _ _ _ OK _ _ _ _ _ _ _ I L IN) as (a & n & p & S & _ & G).
    destruct (C97_never_connected A u o y0 y FR R) as (_ & NC). specialize (NC _ _ _ _ S).
    destruct (f_ups _ _ _ OK p) as (_ & _ & m' & G' & W). rewrite G in G'. injection G' as <-. destruct p; [elim NC|elim NC|exact W]. }
  destruct (MixProofs.i_q _ _ _ _ _ _ _ _ I) as (ls & Q).
  assert (NS : forall t h m, ~ In (OStart t o h m) (f_qt y)).
  { intros t h m IN. destruct (in_split _ _ IN) as (p & q & E).
    destruct (C85_handler_after_handshake QE _ _ _ _ _ _ _ _ _ Q E) as (p' & -> & (h1 & m1 & IN1 & H1) & _).
    destruct (RD h1 m1) as (_ & H2 & _); [|congruence]. rewrite E. apply in_app_iff. left. apply in_app_iff. auto. }
  split; [exact NS|]. intros p h m q E.
  destruct (RD h m) as (S & H & F); [rewrite E; apply in_elt|].
  destruct (qrun_split QE _ _ _ Q _ _ _ E) as (ls1 & s1 & tr1 & l & s2 & e1 & e2 & R1 & FI & P & q' & Q').
  assert (IN : In (ORead o h m) (e1 ++ ORead o h m :: e2)) by apply in_elt.
  destruct (by_read QE _ _ _ _ _ _ _ _ FI) as (-> & c & O & T). rewrite app_nil_r in P. subst p.
  assert (UU : k_uuid c = u).
  { pose proof (i_conn QE _ _ (qrun_inv QE _ _ _ R1) _ _ O) as W.
    assert (W' : In (OConnected (k_uuid c) o) (f_qt y)) by (rewrite E; apply in_app_iff; auto).
    destruct (i_made QE _ _ (qrun_inv QE _ _ _ Q) _ _ W') as (c1 & O1 & U1).
    destruct (i_made QE _ _ (qrun_inv QE _ _ _ Q) _ _ (MixProofs.i_o _ _ _ _ _ _ _ _ I)) as (c2 & O2 & U2). congruence. }
  subst q. inversion T as [S1 _ EQ|H1 _ EQ|pw H1 _ _ EQ|H1 _ _ EQ|H1 _ _ EQ|kind H1 _ _ _ EQ|H1 _ _ F1 EQ]; try congruence.
  - rewrite UU. eexists. reflexivity.
  - rewrite UU. eexists. reflexivity.
  - exfalso. apply (NS (p_tasks s1) h m). rewrite E, <- EQ. rewrite in_app_iff. right. right. left. reflexivity.
Qed.
End Statements.
Print Assumptions C97_never_connected.
Print Assumptions C97_patient_is_silent.
Print Assumptions C97_never_served_partial.

(** ** Concrete cases *)

Inductive step (X L : Type) := ByServer (l : qlabel X) | Receive | ByApp (n : N) (x : X) | ByClient (l : L) | Deliver.
Arguments ByServer {X L}. Arguments Receive {X L}. Arguments ByApp {X L}. Arguments ByClient {X L}. Arguments Deliver {X L}.

Section Play.
Variable QE : qenv.
Variable CE : ConsumerModel.cenv.
Variable K : mcodec QE CE.
Variable careful : bool.
Local Notation mix := (mix QE CE).

Definition policy (ct : list (ConsumerModel.out CE)) (l : ConsumerModel.label CE) : Prop :=
  if careful then SystemModel.patient CE ct l else True.
Definition pack_down (ms : list (N * qpay (q_out QE))) : list packet :=
  map (fun np => TsSystemModel.frame (q_sig QE) (f_down _ _ K (snd np)) (fst np) 0) ms.
Definition pack_up (ms : list (N * ConsumerModel.payload CE)) : list packet :=
  map (fun np => TsSystemModel.frame (ConsumerModel.x_sig CE) (f_up _ _ K (snd np)) (fst np) 0) ms.
Definition apartb (u : N) (l : qlabel (q_out QE)) : bool :=
  match l with LConnected v | LDisconnected v | LData v _ _ => negb (v =? u) | _ => true end.

(** Everything that is under way is taken at once. *)
Definition go (u : N) (y : mix) (c : step (q_out QE) (ConsumerModel.label CE)) : option mix :=
  let '(mkMix _ _ q qt cs ls ct uw dw) := y in
  match c with
  | ByServer l => if apartb u l then
      match fire QE q l with
      | Some (s', es) => Some (mkMix QE CE s' (qt ++ es) cs ls ct uw (dw ++ stream (pack_down (TsSystemModel.handed QE u es))))
      | None => None
      end else None
  | Receive => if Nat.ltb 0 (length uw) then
      match fire QE q (LData u (firstn (length uw) uw) 9) with
      | Some (s', es) => Some (mkMix QE CE s' (qt ++ es) cs ls ct (skipn (length uw) uw) (dw ++ stream (pack_down (TsSystemModel.handed QE u es))))
      | None => None
      end else None
  | ByApp n x => Some (mkMix QE CE q qt cs ls ct uw (dw ++ stream (pack_down [(n, PAnswer x)])))
  | ByClient l => if PropSystem.mayb CE careful ct l then
      match ConsumerModel.fire CE l cs with
      | Some (s', t) => Some (mkMix QE CE q qt s' (ls ++ [l]) (ct ++ t) (uw ++ stream (pack_up (SystemModel.sent_up CE t))) dw)
      | None => None
      end else None
  | Deliver =>
      let l := ConsumerModel.LEvent CE (ConsumerModel.InBinary (firstn (length dw) dw)) in
      match ConsumerModel.fire CE l cs with
      | Some (s', t) => Some (mkMix QE CE q qt s' (ls ++ [l]) (ct ++ t) (uw ++ stream (pack_up (SystemModel.sent_up CE t))) (skipn (length dw) dw))
      | None => None
      end
  end.
Fixpoint play (u : N) (y : mix) (cs : list (step (q_out QE) (ConsumerModel.label CE))) : option mix :=
  match cs with [] => Some y | c :: cs => match go u y c with Some y' => play u y' cs | None => None end end.

Lemma packed ms : passed QE CE K ms (pack_down ms).
Proof. induction ms as [|[n p] ms IH]; [constructor|]. exact (passed_on QE CE K n p 0 ms _ IH). Qed.
Lemma packed_up ms : up_packets QE CE K ms (pack_up ms).
Proof. unfold up_packets, pack_up. induction ms as [|np ms IH]; cbn [map]; constructor; eauto. Qed.

Lemma go_move u y c y' : go u y c = Some y' -> move QE CE K policy u y y'.
Proof.
  destruct y as [q qt cs ls ct uw dw]. destruct c as [l| |n x|l|]; unfold go; intro H.
  - destruct (apartb u l) eqn:AP; [|discriminate H]. destruct (fire QE q l) as [[s' es]|] eqn:F; [|discriminate H]. injection H as <-.
    refine (F_server QE CE K policy u (mkMix QE CE q qt cs ls ct uw dw) l s' es _ _ F (packed _)).
    destruct l; cbn [apartb TsSystemModel.apart] in *; auto; intros ->; rewrite N.eqb_refl in AP; discriminate AP.
  - destruct (Nat.ltb 0 (length uw)) eqn:L; [|discriminate H]. destruct (fire QE q _) as [[s' es]|] eqn:F; [|discriminate H]. injection H as <-.
    refine (F_receive QE CE K policy u (mkMix QE CE q qt cs ls ct uw dw) (length uw) 9 s' es _ _ F (packed _)).
    apply Nat.ltb_lt in L. cbn [MixModel.f_uw]. lia.
  - injection H as <-. exact (F_control QE CE K policy u (mkMix QE CE q qt cs ls ct uw dw) n x _ (packed _)).
  - destruct (PropSystem.mayb CE careful ct l) eqn:MY; [|discriminate H]. destruct (ConsumerModel.fire CE l cs) as [[s' t]|] eqn:F; [|discriminate H].
    injection H as <-.
    refine (F_client QE CE K policy u (mkMix QE CE q qt cs ls ct uw dw) l s' t _ _ _ F (packed_up _)); cbn [MixModel.f_ct].
    + destruct l; try exact I. destruct e; try exact I. discriminate MY.
    + unfold policy. destruct careful eqn:CA; [|exact I]. destruct l; try exact I. destruct k; try exact I; apply PropSystem.told_in; exact MY.
  - cbv zeta in H. destruct (ConsumerModel.fire CE _ cs) as [[s' t]|] eqn:F; [|discriminate H]. injection H as <-.
    refine (F_deliver QE CE K policy u (mkMix QE CE q qt cs ls ct uw dw) (length dw) s' t _ _ F (packed_up _)).
    cbn [MixModel.f_dw]. lia.
Qed.

Lemma play_reach u y0 cs : forall y y', reach QE CE K policy u y0 y -> play u y cs = Some y' -> reach QE CE K policy u y0 y'.
Proof.
  induction cs as [|c cs IH]; intros y y' R H; cbn [play] in H; [injection H as <-; exact R|].
  destruct (go u y c) as [y1|] eqn:G; [|discriminate H]. apply (IH y1); [|exact H]. exact (reach_move _ _ _ _ _ _ _ _ R (go_move _ _ _ _ G)).
Qed.
End Play.

(** The server of PropTsServer.v; a client that knows message 1 as the confirmation, 2
    as the answer to the self key, 3 to the hashes, 4 to a beacon, 10 as an answer, 20
    as a broadcast. *)
Definition SE : qenv := demo_env emit ProducerModel.IEmit.
Definition KE : ConsumerModel.cenv := {|
  ConsumerModel.x_msg := N * bytes; ConsumerModel.x_user := N;
  ConsumerModel.x_get := fun id b => if existsb (N.eqb id) [1; 2; 3; 4; 10; 20] then Ok (id, b) else Err EUnknownMsg;
  ConsumerModel.x_sig := 7;
  ConsumerModel.x_confirm := fun m => fst m =? 1;
  ConsumerModel.x_self := fun m => if fst m =? 2 then Some (snd m) else None;
  ConsumerModel.x_hash := fun m => if fst m =? 3 then Some (match snd m with [] => None | b => Some b end) else None;
  ConsumerModel.x_beacon := fun m => if fst m =? 4 then Some (match snd m with [] => None | b => Some b end) else None;
  ConsumerModel.x_answer := fun r m => if fst m =? 10 then Some 0%nat else None;
  ConsumerModel.x_broadcast := fun m => if fst m =? 20 then Some 0%nat else None;
  ConsumerModel.x_uuid := fun b => Some (unle b) |}.
Definition demo_codec : mcodec SE KE := mkMcodec SE KE
  (fun p : ConsumerModel.payload KE => match p with
    | ConsumerModel.PSelf _ => (1, [])
    | ConsumerModel.PHash _ => (2, [x61])
    | ConsumerModel.PUser _ _ _ => (3, [])
    end)
  (fun p : qpay N => match p with
    | PSelf v => (2, le 16 v)
    | PHash b => (3, if b then [] else [x01])
    | PConfirm => (4, [])
    | PAnswer x => (if (x : N) <? 20 then 10 else 20, le 8 x)
    end).
Lemma demo_compatible : compatible SE KE demo_codec.
Proof.
  constructor; [reflexivity|reflexivity| |].
  - intros [| |x v]; (split; [reflexivity|]); (split; [reflexivity|]); eexists; (split; [reflexivity|]); cbn; repeat split. discriminate.
  - intros [v|b|x|]; cbn [f_down demo_codec fst snd].
    + do 2 (split; [reflexivity|]). eexists. split; [reflexivity|]. split; [reflexivity|]. eexists. split; [reflexivity|].
      intros L. change (Some (unle (le 16 v)) = Some v). f_equal. apply (unle_le_small 16 v). exact L.
    + destruct b; do 2 (split; [reflexivity|]); eexists; (split; [reflexivity|]); (split; [reflexivity|]); eexists; (split; [reflexivity|]); split; intro W; solve [reflexivity|discriminate W].
    + destruct (x <? 20); do 2 (split; [reflexivity|]); eexists; (split; [reflexivity|]); (split; [reflexivity|]); split; reflexivity.
    + do 2 (split; [reflexivity|]). eexists. split; [reflexivity|]. split; reflexivity.
Qed.

Definition start : option (mix SE KE) :=
  match fire SE qinit (LConnected 5) with
  | Some (s, es) => Some (mkMix SE KE s es (ConsumerModel.start KE) [] [] [] [])
  | None => None
  end.
Lemma demo_play careful cs (P : mix SE KE -> Prop) :
  match start with
  | Some y => match play SE KE demo_codec careful 5 y cs with Some y' => P y' | None => False end
  | None => False
  end ->
  exists y0 y, fresh SE KE 5 0 y0 /\ reach SE KE demo_codec (policy KE careful) 5 y0 y /\ P y.
Proof.
  destruct start as [y0|] eqn:S; [|intros []]. destruct (play _ _ _ _ _ y0 cs) as [y|] eqn:R; [|intros []]. intro H.
  exists y0, y. split; [|split; [|exact H]].
  - unfold start in S. cbn in S. injection S as <-. exists [], qinit, []. split; [constructor|]. split; [intros v []|]. do 6 (split; [reflexivity|]). reflexivity.
  - exact (play_reach _ _ _ _ _ _ _ _ _ (reach_start _ _ _ _ _ _) R).
Qed.

(** The server's application sends a message to the client, which the client's
    application gets; then nothing is left to be done on either side, and the client is
    not connected. *)
Definition idle (y : mix SE KE) : Prop :=
  f_uw _ _ y = [] /\ f_dw _ _ y = [] /\ p_loop (f_q _ _ y) = None /\
  ConsumerModel.s_msg KE (f_c _ _ y) = ConsumerModel.MIdle KE /\ ConsumerModel.s_q KE (f_c _ _ y) = [] /\ ConsumerModel.s_acts KE (f_c _ _ y) = [].
Definition told : list (step N (ConsumerModel.label KE)) :=
  [ByApp 0 22; Deliver; ByClient (ConsumerModel.LNext KE); ByClient (ConsumerModel.LApi KE true); ByClient (ConsumerModel.LAnswer KE);
   ByClient (ConsumerModel.LEmit KE); ByClient (ConsumerModel.LHandled KE); ByClient (ConsumerModel.LNext KE)].
Example C97_example : compatible SE KE demo_codec /\ exists y0 y,
  fresh SE KE 5 0 y0 /\ reach SE KE demo_codec (SystemModel.patient KE) 5 y0 y /\ idle y /\
  exists h m, In (ConsumerModel.XIn KE h m) (f_ct _ _ y).
Proof.
  split; [exact demo_compatible|].
  apply (demo_play true told). vm_compute. split; [repeat split; reflexivity|]. do 2 eexists. rewrite ?in_app_iff. 
  repeat (first [left; reflexivity|right]).
Qed.

(** An application that does not wait is asked to leave. *)
Definition early : list (step N (ConsumerModel.label KE)) :=
  [ByClient (ConsumerModel.LCall KE (ConsumerModel.KReq KE 0 9)); ByClient (ConsumerModel.LAct KE 0 true); ByClient (ConsumerModel.LApi KE true);
   ByClient (ConsumerModel.LAct KE 0 true); ByClient (ConsumerModel.LApi KE true); ByClient (ConsumerModel.LAuth KE);
   ByClient (ConsumerModel.LAct KE 0 true); ByClient (ConsumerModel.LApi KE true); Receive; ByServer LNext; ByServer LNext].
Example C97_never_served_example : compatible SE KE demo_codec /\ exists y0 y,
  fresh SE KE 5 0 y0 /\ reach SE KE demo_codec (fun _ _ => True) 5 y0 y /\
  blen (concat (chunks SE 0 (f_qt _ _ y))) < 2 ^ 64 /\ exists h, In (ORead 0 h (3, [])) (f_qt _ _ y).
Proof.
  split; [exact demo_compatible|].
  apply (demo_play false early). vm_compute. split; [reflexivity|]. eexists. repeat (first [left; reflexivity|right]).
Qed.

(** So the two come to rest without the client being connected. *)
Theorem C97_connects_refuted : exists QE CE K u o y0 y,
  compatible QE CE K /\ fresh QE CE u o y0 /\ reach QE CE K (SystemModel.patient CE) u y0 y /\
  f_uw _ _ y = [] /\ f_dw _ _ y = [] /\ p_loop (f_q _ _ y) = None /\ ConsumerModel.s_msg CE (f_c _ _ y) = ConsumerModel.MIdle CE /\
  ~ In (ConsumerModel.XEmit CE (ConsumerModel.EConnected CE)) (f_ct _ _ y).
Proof.
  destruct C97_example as (C & y0 & y & F & R & (H1 & H2 & H3 & H4 & _) & _).
  exists SE, KE, demo_codec, 5, 0%nat, y0, y. do 7 (split; [assumption|]).
  exact (proj1 (C97_never_connected SE KE demo_codec C _ _ _ _ _ F R)).
Qed.
Print Assumptions C97_connects_refuted.
