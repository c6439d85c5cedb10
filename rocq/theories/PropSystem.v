(** Property C41: a generated producer and a generated consumer of the same
    protocol and workflow, connected by a reliable transport.

    All statements are about any state [y] that the two reach together, in any
    interleaving and with any segmentation of the bytes, after the producer has
    added the connection [u]; the application of the consumer calls once it has been
    told of the connection ([EConnected]).  [y_pt] is what the producer has done,
    [y_ct] what the consumer has done. *)
From Coq Require Import List Arith NArith Bool Lia.
From Coq Require Import Strings.Byte.
From Verif Require Import Bytes WireModel FrameModel FrameProofs.
From Verif Require ProducerModel ConsumerModel ConsumerSpec PropProducer PropConsumer SystemServer.
From Verif Require Import SystemModel SystemProofs.
Import ListNotations.
Open Scope N_scope.

Section Connected.
Variable PE : ProducerModel.env.
Variable CE : ConsumerModel.cenv.
Variable K : codec PE CE.
Hypothesis COMPAT : compatible PE CE K.
Variables (u : N) (y0 y : sys PE CE).
Hypothesis FRESH : fresh PE CE u y0.
Hypothesis REACH : reach PE CE K (patient CE) u y0 y.

(** The producer never complains about a missing confirmation, key or hash of
    [u].  It disconnects [u] only if the consumer strategy says so and an answer
    to [u] could not be packed or sent, or if the identification strategy says so
    and the server's application has assigned no key. *)
Theorem C41_never_expelled :
  (forall w, ~ In (ProducerModel.OError PE (ProducerModel.ENoKey u) w) (y_pt _ _ y)) /\
  ~ In (ProducerModel.OError PE ProducerModel.ENotConfirmed (Some u)) (y_pt _ _ y) /\
  forall t1 ok t2, y_pt _ _ y = t1 ++ ProducerModel.ODisc PE u ok :: t2 ->
    ((ProducerModel.e_cs PE = ProducerModel.SDisc \/ ProducerModel.e_cs PE = ProducerModel.SEmitDisc) /\
     ((exists n p, In (ProducerModel.OUnpacked PE (Some u) n p) t1) \/ exists n p, In (ProducerModel.OSend PE u n p false) t1))
    \/ ((ProducerModel.e_is PE = ProducerModel.IDisc \/ ProducerModel.e_is PE = ProducerModel.IEmitDisc) /\
        ~ In (ProducerModel.OSetAssigned PE u) t1).
Proof.
  destruct (inv_reach PE CE K u COMPAT y0 y FRESH REACH) as (ups & downs & I). pose proof (i_good _ _ _ _ _ _ _ I) as G.
  split; [|split].
  - intros w J. destruct (in_split _ _ J) as (t1 & t2 & Q). destruct (G _ _ _ Q) as ((W & _) & _). apply W. reflexivity.
  - intros J. destruct (in_split _ _ J) as (t1 & t2 & Q). destruct (G _ _ _ Q) as ((_ & W) & _). apply W; reflexivity.
  - intros t1 ok t2 Q. destruct (G _ _ _ Q) as (W & _). specialize (W eq_refl). destruct W as [(C & F)|(C & F)].
    + left. split; [|exact F]. unfold SystemServer.cut_on_error in C. destruct (ProducerModel.e_cs PE); auto; discriminate C.
    + right. split; [|exact F]. unfold SystemServer.cut_unassigned in C. destruct (ProducerModel.e_is PE); auto; discriminate C.
Qed.

(** Every request and beacon that is taken up is served: the next thing the
    producer does is to call the handler of the server's application, unless the
    identification strategy asks for an assigned key that is missing. *)
Theorem C41_requests_served : forall t1 h m t2,
  y_pt _ _ y = t1 ++ ProducerModel.OHandle PE u h m :: t2 ->
  ProducerModel.e_self PE m = None -> ProducerModel.e_hash PE m = None ->
  (ProducerModel.e_is PE = ProducerModel.IIgnore \/ ProducerModel.e_is PE = ProducerModel.ILog \/ In (ProducerModel.OSetAssigned PE u) t1) ->
  (forall r, ProducerModel.e_request PE m = Some r -> exists ids res t3, t2 = ProducerModel.OCall PE u r m ids res :: t3) /\
  (forall b, ProducerModel.e_request PE m = None -> ProducerModel.e_beacon PE m = Some b ->
     exists ids ok t3, t2 = ProducerModel.OBeacon PE u b m ids ok :: t3).
Proof.
  intros t1 h m t2 Q S Hm A. destruct (inv_reach PE CE K u COMPAT y0 y FRESH REACH) as (ups & downs & I).
  assert (Z : ProducerModel.e_request PE m <> None \/ ProducerModel.e_beacon PE m <> None -> exists o t3, t2 = o :: t3 /\ SystemServer.served PE u m o).
  { intros W. assert (D : SystemServer.due PE u (t1 ++ [ProducerModel.OHandle PE u h m]) m).
    { exists t1, h. split; [reflexivity|]. split; [exact S|]. split; [exact Hm|]. split; [exact W|]. unfold SystemServer.strict. intros T.
      destruct A as [A|[A|A]]; [rewrite A in T; discriminate T|rewrite A in T; discriminate T|exact A]. }
    destruct t2 as [|o t2].
    - elim (i_idle _ _ _ _ _ _ _ I m). rewrite Q. exact D.
    - exists o, t2. split; [reflexivity|]. apply (i_good _ _ _ _ _ _ _ I (t1 ++ [ProducerModel.OHandle PE u h m]) o t2); [|exact D].
      rewrite Q, <- app_assoc. reflexivity. }
  split.
  - intros r R. destruct Z as (o & t3 & -> & V); [left; congruence|]. unfold SystemServer.served in V. rewrite R in V.
    destruct V as (ids & res & ->). eauto.
  - intros b R B. destruct Z as (o & t3 & -> & V); [right; congruence|]. unfold SystemServer.served in V. rewrite R in V.
    destruct V as (b' & ids & ok & B' & ->). rewrite B in B'. injection B' as <-. eauto.
Qed.

(** What the producer takes up are the messages the consumer has sent, in their
    order and with their numbers, none left out, none twice.  If the producer
    runs, has not disconnected [u], and no bytes are under way, all of them have
    been taken up or wait incomplete - that is, all. *)
Theorem C41_all_handled :
  exists done rest, sent_up CE (y_ct _ _ y) = done ++ rest /\
  Forall2 (fun hm np => h_seq (fst hm) = fst np mod 2 ^ 32 /\
      ProducerModel.e_get PE (fst (k_up _ _ K (snd np))) (snd (k_up _ _ K (snd np))) = Ok (snd hm))
    (handled_by PE u (y_pt _ _ y)) done /\
  (y_run _ _ y = true -> y_ups _ _ y = [] -> (forall ok, ~ In (ProducerModel.ODisc PE u ok) (y_pt _ _ y)) -> rest = []).
Proof.
  destruct (inv_reach PE CE K u COMPAT y0 y FRESH REACH) as (ups & downs & I).
  pose proof (i_ups _ _ _ _ _ _ _ I) as U. destruct (up_ok PE CE K COMPAT _ _ U) as (OK & GOOD).
  assert (D : forall ms qs, up_packets PE CE K ms qs ->
    Forall2 (fun hm np => h_seq (fst hm) = fst np mod 2 ^ 32 /\
      ProducerModel.e_get PE (fst (k_up _ _ K (snd np))) (snd (k_up _ _ K (snd np))) = Ok (snd hm))
     (flat_map (deliver (ProducerModel.e_get PE) (ProducerModel.e_sig PE)) qs) ms).
  { intros ms qs F. induction F as [|[n p] q ms qs (ts & ->) F IH]; [constructor|].
    destruct (y_up _ _ _ COMPAT p) as (_ & _ & m & Gm & _). cbn [flat_map deliver frame p_sig p_id p_body fst snd].
    unfold deliver at 1. cbn [frame p_sig p_id p_body fst snd]. rewrite (y_sig _ _ _ COMPAT), N.eqb_refl, Gm. cbn [app].
    constructor; [|rewrite <- (y_sig _ _ _ COMPAT); exact IH]. cbn [fst snd]. split; [reflexivity|exact Gm]. }
  pose proof (D _ _ U) as F. destruct (i_hand _ _ _ _ _ _ _ I) as (more & H). rewrite H in F.
  apply Forall2_app_inv_l in F. destruct F as (done & rest & F1 & F2 & Q). exists done, rest. split; [exact Q|]. split; [exact F1|].
  intros R Y ND. destruct (i_serv _ _ _ _ _ _ _ I R) as (B & j & _ & L & Hj & S). destruct (S ND) as (S1 & S2). rewrite Y, app_nil_r in S1.
  assert (J : skipn j ups = []).
  { destruct (skipn j ups) as [|q l] eqn:W; [reflexivity|]. exfalso. cbn in S2. rewrite S1 in S2. cbn in S2.
    change (blen (wire q ++ stream l) < blen (wire q)) in S2. rewrite blen_app in S2. lia. }
  assert (E : more = []).
  { rewrite Hj in H. rewrite <- (firstn_skipn j ups), J, flat_map_app, app_nil_r in H at 1. cbn [flat_map] in H.
    rewrite <- (app_nil_r (flat_map _ (firstn j ups))) in H at 1. apply app_inv_head in H. congruence. }
  rewrite E in F2. inversion F2. reflexivity.
Qed.
End Connected.
Print Assumptions C41_never_expelled.
Print Assumptions C41_requests_served.
Print Assumptions C41_all_handled.

(** ** Examples: the producer of PropProducer.v and a consumer of its protocol *)
Section Script.
Variable PE : ProducerModel.env.
Variable CE : ConsumerModel.cenv.
Variable K : codec PE CE.
Variable u : N.

Inductive instr :=
| IServer (e : ProducerModel.event) | IReceive (n : nat) | IClient (l : ConsumerModel.label CE) | IDeliver (n : nat).

Definition down (t : list (ProducerModel.out PE)) : list packet :=
  map (fun np => frame (ProducerModel.e_sig PE) (k_down _ _ K (snd np)) (fst np) 0) (sent_down PE u t).
Definition up (t : list (ConsumerModel.out CE)) : list packet :=
  map (fun np => frame (ConsumerModel.x_sig CE) (k_up _ _ K (snd np)) (fst np) 0) (sent_up CE t).
Definition told (ct : list (ConsumerModel.out CE)) : bool :=
  existsb (fun o => match o with ConsumerModel.XEmit _ (ConsumerModel.EConnected _) => true | _ => false end) ct.
Definition mayb (pol : bool) (ct : list (ConsumerModel.out CE)) (l : ConsumerModel.label CE) : bool :=
  match l with
  | ConsumerModel.LEvent _ (ConsumerModel.InBinary _) => false
  | ConsumerModel.LCall _ (ConsumerModel.KReq _ _ _) | ConsumerModel.LCall _ (ConsumerModel.KBeacon _ _ _) => negb pol || told ct
  | _ => true
  end.
Definition apartb (e : ProducerModel.event) : bool :=
  match e with
  | ProducerModel.VConnected v | ProducerModel.VDisconnected v | ProducerModel.VReceived v _ => negb (v =? u)
  | _ => true
  end.

Definition obey (pol : bool) (i : instr) (y : sys PE CE) : option (sys PE CE) :=
  match i with
  | IServer e =>
    if y_run _ _ y && apartb e then
      let '(t, (s', r)) := ProducerModel.step PE e (y_p _ _ y) in
      Some (mkSys _ _ s' (goes r) (y_pt _ _ y ++ t) (y_c _ _ y) (y_ls _ _ y) (y_ct _ _ y) (y_ups _ _ y) (y_downs _ _ y ++ stream (down t)))
    else None
  | IReceive n =>
    if y_run _ _ y && (Nat.ltb 0 n && Nat.leb n (length (y_ups _ _ y))) then
      let '(t, (s', r)) := ProducerModel.step PE (ProducerModel.VReceived u (firstn n (y_ups _ _ y))) (y_p _ _ y) in
      Some (mkSys _ _ s' (goes r) (y_pt _ _ y ++ t) (y_c _ _ y) (y_ls _ _ y) (y_ct _ _ y) (skipn n (y_ups _ _ y)) (y_downs _ _ y ++ stream (down t)))
    else None
  | IClient l =>
    if mayb pol (y_ct _ _ y) l then
      match ConsumerModel.fire CE l (y_c _ _ y) with
      | Some (s', t) => Some (mkSys _ _ (y_p _ _ y) (y_run _ _ y) (y_pt _ _ y) s' (y_ls _ _ y ++ [l]) (y_ct _ _ y ++ t) (y_ups _ _ y ++ stream (up t)) (y_downs _ _ y))
      | None => None
      end
    else None
  | IDeliver n =>
    if Nat.leb n (length (y_downs _ _ y)) then
      let l := ConsumerModel.LEvent CE (ConsumerModel.InBinary (firstn n (y_downs _ _ y))) in
      match ConsumerModel.fire CE l (y_c _ _ y) with
      | Some (s', t) => Some (mkSys _ _ (y_p _ _ y) (y_run _ _ y) (y_pt _ _ y) s' (y_ls _ _ y ++ [l]) (y_ct _ _ y ++ t) (y_ups _ _ y ++ stream (up t)) (skipn n (y_downs _ _ y)))
      | None => None
      end
    else None
  end.
Fixpoint script (pol : bool) (is : list instr) (y : sys PE CE) : option (sys PE CE) :=
  match is with [] => Some y | i :: is => match obey pol i y with Some y' => script pol is y' | None => None end end.

Definition free (_ : list (ConsumerModel.out CE)) (_ : ConsumerModel.label CE) : Prop := True.

Lemma down_is t : down_packets PE CE K (sent_down PE u t) (down t).
Proof. unfold down, down_packets. induction (sent_down PE u t) as [|np l IH]; cbn; constructor; eauto. Qed.
Lemma up_is t : up_packets PE CE K (sent_up CE t) (up t).
Proof. unfold up, up_packets. induction (sent_up CE t) as [|np l IH]; cbn; constructor; eauto. Qed.
Lemma told_in ct : told ct = true -> In (ConsumerModel.XEmit CE (ConsumerModel.EConnected CE)) ct.
Proof. intros T. apply existsb_exists in T. destruct T as (o & J & W). destruct o; try discriminate W. destruct e; try discriminate W. exact J. Qed.

Lemma obey_move (pol : bool) i y y' : obey pol i y = Some y' -> move PE CE K (if pol then patient CE else free) u y y'.
Proof.
  destruct i as [e|n|l|n]; cbn [obey]; intros Q.
  - destruct (y_run PE CE y) eqn:R; [|discriminate Q]. destruct (apartb e) eqn:A; [|discriminate Q].
    cbn [andb] in Q. destruct (ProducerModel.step PE e (y_p PE CE y)) as (t & s' & r) eqn:S. injection Q as <-. eapply M_server; eauto using down_is.
    unfold apart. destruct e; cbn in A |- *; auto; apply negb_true_iff, N.eqb_neq in A; exact A.
  - destruct (y_run PE CE y) eqn:R; [|discriminate Q]. destruct (Nat.ltb 0 n && Nat.leb n (length (y_ups PE CE y))) eqn:A; [|discriminate Q].
    apply andb_true_iff in A. destruct A as (A1 & A2). apply Nat.ltb_lt in A1. apply Nat.leb_le in A2.
    cbn [andb] in Q. destruct (ProducerModel.step PE _ (y_p PE CE y)) as (t & s' & r) eqn:S. injection Q as <-. eapply M_receive; eauto using down_is.
  - destruct (mayb pol (y_ct PE CE y) l) eqn:A; [|discriminate Q]. destruct (ConsumerModel.fire CE l (y_c PE CE y)) as [[s' t]|] eqn:F; [|discriminate Q].
    injection Q as <-. eapply M_client; eauto using up_is.
    + destruct l; try exact I. destruct e; try exact I. discriminate A.
    + destruct pol; [|exact I]. destruct l; try exact I. destruct k; try exact I; apply told_in; exact A.
  - destruct (Nat.leb n (length (y_downs PE CE y))) eqn:A; [|discriminate Q]. apply Nat.leb_le in A.
    cbv zeta in Q. destruct (ConsumerModel.fire CE _ (y_c PE CE y)) as [[s' t]|] eqn:F; [|discriminate Q].
    injection Q as <-. eapply M_deliver; eauto using up_is.
Qed.
Lemma script_reach (pol : bool) is : forall y y1 y', reach PE CE K (if pol then patient CE else free) u y y1 -> script pol is y1 = Some y' ->
  reach PE CE K (if pol then patient CE else free) u y y'.
Proof.
  induction is as [|i is IH]; intros y y1 y' R S; cbn in S; [injection S as <-; exact R|].
  destruct (obey pol i y1) as [y2|] eqn:O; [|discriminate S]. eapply IH; [|exact S]. eapply reach_move; [exact R|]. apply obey_move with (i := i). exact O.
Qed.
End Script.

(** The consumer: message 1 confirms, 2 answers the self key with the uuid, 3 the
    hash, 4 a beacon, 10 and 11 are answers, 20 is a broadcast. *)
Definition peer : ConsumerModel.cenv := {|
  ConsumerModel.x_msg := N * bytes; ConsumerModel.x_user := N;
  ConsumerModel.x_get := fun id b => if existsb (N.eqb id) [1; 2; 3; 4; 10; 11; 20] then Ok (id, b) else Err EUnknownMsg;
  ConsumerModel.x_sig := 5;
  ConsumerModel.x_confirm := fun m => fst m =? 1;
  ConsumerModel.x_self := fun m => if fst m =? 2 then Some (snd m) else None;
  ConsumerModel.x_hash := fun m => if fst m =? 3 then Some (match snd m with [] => None | b => Some b end) else None;
  ConsumerModel.x_beacon := fun m => if fst m =? 4 then Some (match snd m with [] => None | b => Some b end) else None;
  ConsumerModel.x_answer := fun r m => if fst m =? 10 then Some 0%nat else if fst m =? 11 then Some 1%nat else None;
  ConsumerModel.x_broadcast := fun m => if fst m =? 20 then Some 0%nat else None;
  ConsumerModel.x_uuid := fun b => Some (unle b) |}.

Definition wires is cs bad dok : codec (PropProducer.demo is cs bad dok) peer := mkCodec (PropProducer.demo is cs bad dok) peer
  (fun p : ConsumerModel.payload peer => match p with
    | ConsumerModel.PSelf _ => (1, [x61])
    | ConsumerModel.PHash _ => (2, [x0a; x0b])
    | ConsumerModel.PUser _ x _ => (10, le 8 x)
    end)
  (fun p : ProducerModel.payload N => match p with
    | ProducerModel.PConfirm => (1, [])
    | ProducerModel.PSelf v => (2, le 16 v)
    | ProducerModel.PHash b => (3, if b then [] else [x01])
    | ProducerModel.PBeacon => (4, [])
    | ProducerModel.PAnswer x => (10, le 8 x)
    | ProducerModel.PBroadcast x => (20, le 8 x)
    end).

Lemma wires_compatible is cs bad dok : compatible (PropProducer.demo is cs bad dok) peer (wires is cs bad dok).
Proof.
  split; [reflexivity|reflexivity| |].
  - intros [| |x v]; cbn [wires k_up fst snd]; (split; [reflexivity|]); (split; [reflexivity|]); eexists; (split; [reflexivity|]); cbn; auto.
    split; [discriminate|reflexivity].
  - intros [v|b| | |x|x]; cbn [wires k_down fst snd]; (split; [reflexivity|]); try (split; [reflexivity|]); try (eexists; (split; [reflexivity|]); cbn; auto).
    + split; [reflexivity|]. split; [reflexivity|]. eexists. split; [reflexivity|]. intros L. f_equal. apply (unle_le_small 16 v). exact L.
    + destruct b; (split; [reflexivity|]); eexists; (split; [reflexivity|]); cbn; (split; [reflexivity|]); (split; [reflexivity|]); eexists; (split; [reflexivity|]); split; auto; discriminate.
Qed.

Definition begin is cs bad dok : sys (PropProducer.demo is cs bad dok) peer :=
  mkSys _ _ (PropProducer.final (PropProducer.demo is cs bad dok) tt [ProducerModel.VConnected 4]) true []
    (ConsumerModel.start peer) [] [] [] [].
Lemma begin_fresh is cs bad dok : fresh _ _ 4 (begin is cs bad dok).
Proof. repeat split. Qed.

(** The handshake in pieces: half of the confirmation, the rest with nothing else,
    the self key in two chunks, the uuid, the hash, the verdict. *)
Definition act (a : nat) : list (instr peer) := [IClient _ (ConsumerModel.LAct peer a true); IClient _ (ConsumerModel.LApi peer true)].
Definition drain : list (instr peer) :=
  [IClient _ (ConsumerModel.LNext peer); IClient _ (ConsumerModel.LApi peer true); IClient _ (ConsumerModel.LAnswer peer); IClient _ (ConsumerModel.LNext peer)].
Definition greet : list (instr peer) :=
  [IServer _ ProducerModel.VConfirm; IDeliver _ 13; IClient _ (ConsumerModel.LNext peer);
   IDeliver _ 13; IClient _ (ConsumerModel.LNext peer); IClient _ (ConsumerModel.LNext peer)] ++
  act 0 ++ [IReceive _ 20; IReceive _ 7; IDeliver _ 42] ++ drain ++
  act 0 ++ [IReceive _ 28; IDeliver _ 26] ++ drain ++
  [IClient _ (ConsumerModel.LAct peer 0 true); IClient _ (ConsumerModel.LAuth peer);
   IClient _ (ConsumerModel.LEmit peer); IClient _ (ConsumerModel.LHandled peer)].
(** A request [x]: its number, the uuid, the message; it reaches the producer in
    two chunks; answer and broadcast come back in one. *)
Definition ask (a : nat) (x : N) : list (instr peer) :=
  [IClient _ (ConsumerModel.LCall peer (ConsumerModel.KReq peer 0 x))] ++ act a ++ act a ++ [IClient _ (ConsumerModel.LAuth peer)] ++ act a ++
  [IReceive _ 3; IReceive _ 31].
Definition answered (a : nat) : list (instr peer) :=
  [IDeliver _ 68] ++ drain ++ [IClient _ (ConsumerModel.LApi peer true); IClient _ (ConsumerModel.LAnswer peer);
  IClient _ (ConsumerModel.LNext peer); IClient _ (ConsumerModel.LAct peer a true)].

Notation fair := (begin ProducerModel.IIgnore ProducerModel.SEmitDisc [] true).
Notation fair_wires := (wires ProducerModel.IIgnore ProducerModel.SEmitDisc [] true).
Notation fair_server := (PropProducer.demo ProducerModel.IIgnore ProducerModel.SEmitDisc [] true).


(** A script that can be carried out leads to a state that can be reached. *)
Definition possible {PE CE K u} pol is (y0 : sys PE CE) : bool :=
  match script PE CE K u pol is y0 with Some _ => true | None => false end.
Definition after {PE CE} (K : codec PE CE) u pol is (y0 : sys PE CE) : sys PE CE :=
  match script PE CE K u pol is y0 with Some y => y | None => y0 end.
Lemma after_reach {PE CE} (K : codec PE CE) u (pol : bool) is y0 : @possible PE CE K u pol is y0 = true ->
  reach PE CE K (if pol then patient CE else free CE) u y0 (after K u pol is y0).
Proof.
  unfold possible, after. destruct (script PE CE K u pol is y0) as [y|] eqn:Q; [|discriminate]. intros _.
  eapply script_reach; [apply reach_start|exact Q].
Qed.

Definition session : list (instr peer) := greet ++ ask 1 0 ++ answered 1 ++ ask 2 1.

(** a handshake in pieces, a request that is answered with a broadcast, a second
    request that the handler refuses *)
Example C41_example :
  let y := after fair_wires 4 true session fair in
  compatible _ _ fair_wires /\ fresh _ _ 4 fair /\ reach _ _ fair_wires (patient peer) 4 fair y /\
  y_run _ _ y = true /\ y_ups _ _ y = [] /\ (forall ok, ~ In (ProducerModel.ODisc fair_server 4 ok) (y_pt _ _ y)) /\
  map (fun hm => (h_seq (fst hm), fst (snd hm))) (handled_by fair_server 4 (y_pt _ _ y)) = [(0, 1); (1, 2); (11, 10); (12, 10)] /\
  In (ConsumerModel.XRet peer 1 (ConsumerModel.ROk peer 0 (10, le 8 7))) (y_ct _ _ y).
Proof.
  cbv zeta. split; [apply wires_compatible|]. split; [apply begin_fresh|].
  split; [apply (after_reach fair_wires 4 true session fair); vm_compute; reflexivity|].
  split; [vm_compute; reflexivity|]. split; [vm_compute; reflexivity|].
  split. { intros ok. apply (PropProducer.none_in (PropProducer.is_disc 4)); [|reflexivity]. vm_compute. reflexivity. }
  split; [vm_compute; reflexivity|]. vm_compute. tauto.
Qed.

(** a request that is taken up, and what follows *)
Example C41_requests_served_example :
  let y := after fair_wires 4 true session fair in
  exists t1 h m t2, y_pt _ _ y = t1 ++ ProducerModel.OHandle fair_server 4 h m :: t2 /\
    ProducerModel.e_self fair_server m = None /\ ProducerModel.e_hash fair_server m = None /\ ProducerModel.e_request fair_server m = Some 0%nat.
Proof.
  cbv zeta. eexists [_; _; _; _; _], _, _, _. split; [vm_compute; reflexivity|]. vm_compute. auto.
Qed.

(** A producer that disconnects consumers without an assigned key: it disconnects,
    and [C41_never_expelled] names the reason. *)
Example C41_never_expelled_example :
  let z0 := begin ProducerModel.IDisc ProducerModel.SLog [] true in
  let w := wires ProducerModel.IDisc ProducerModel.SLog [] true in
  compatible _ _ w /\ fresh _ _ 4 z0 /\
  reach _ _ w (patient peer) 4 z0 (after w 4 true (greet ++ ask 1 0) z0) /\
  In (ProducerModel.ODisc _ 4 true) (y_pt _ _ (after w 4 true (greet ++ ask 1 0) z0)) /\
  ~ In (ProducerModel.OSetAssigned _ 4) (y_pt _ _ (after w 4 true (greet ++ ask 1 0) z0)).
Proof.
  cbv zeta. split; [apply wires_compatible|]. split; [apply begin_fresh|].
  split; [apply (after_reach (wires ProducerModel.IDisc ProducerModel.SLog [] true) 4 true); vm_compute; reflexivity|].
  split; [vm_compute; tauto|].
  apply (PropProducer.none_in (fun o => match o with ProducerModel.OSetAssigned _ _ => true | _ => false end)); vm_compute; reflexivity.
Qed.

(** If the application of the consumer does not wait for [EConnected], the request
    overtakes the handshake, and the producer expels the consumer. *)
Definition early (x : N) : list (instr peer) :=
  [IClient _ (ConsumerModel.LCall peer (ConsumerModel.KReq peer 0 x))] ++ act 0 ++ act 0 ++ [IClient _ (ConsumerModel.LAuth peer)] ++ act 0.
Theorem C41_early_call_refuted : exists PE CE (K : codec PE CE) u y0 y,
  compatible PE CE K /\ fresh PE CE u y0 /\ reach PE CE K (free CE) u y0 y /\
  In (ProducerModel.OError PE ProducerModel.ENotConfirmed (Some u)) (y_pt _ _ y) /\
  In (ProducerModel.ODisc PE u true) (y_pt _ _ y) /\
  (exists a n p, In (ConsumerModel.XSend CE a n p true) (y_ct _ _ y)) /\
  (forall l, In l (y_ls _ _ y) -> match l with ConsumerModel.LDrop _ _ | ConsumerModel.LCancel _ | ConsumerModel.LTimeout _ _ | ConsumerModel.LClosed _ => False | _ => True end).
Proof.
  exists fair_server, peer, fair_wires, 4, fair, (after fair_wires 4 false (early 0 ++ [IReceive _ 34]) fair).
  split; [apply wires_compatible|]. split; [apply begin_fresh|].
  split; [apply (after_reach fair_wires 4 false); vm_compute; reflexivity|].
  split; [vm_compute; tauto|]. split; [vm_compute; tauto|].
  split; [exists 0%nat, 11, (ConsumerModel.PUser peer 0 None); vm_compute; tauto|].
  vm_compute. intros l J. repeat (destruct J as [<-|J]; [exact I|]). destruct J.
Qed.
Print Assumptions C41_early_call_refuted.

(** "Ends up served" needs more: a broadcast of the server that arrives during the
    handshake carries the number of the self key and ends it (cf. C39), although
    both sides keep to the protocol and nothing fails. *)
Definition disturbed : list (instr peer) :=
  [IServer _ ProducerModel.VConfirm; IDeliver _ 26; IClient _ (ConsumerModel.LNext peer); IClient _ (ConsumerModel.LNext peer)] ++
  act 0 ++ [IServer _ (ProducerModel.VUser 0); IReceive _ 27; IDeliver _ 34] ++ drain ++
  [IClient _ (ConsumerModel.LAct peer 0 true); IClient _ (ConsumerModel.LAuth peer)].
Theorem C41_broadcast_refuted : exists PE CE (K : codec PE CE) u y0 y,
  compatible PE CE K /\ fresh PE CE u y0 /\ reach PE CE K (patient CE) u y0 y /\
  (forall v n p, ~ In (ProducerModel.OSend PE v n p false) (y_pt _ _ y)) /\ (forall v n p, ~ In (ProducerModel.OUnpacked PE v n p) (y_pt _ _ y)) /\
  (forall v ok, ~ In (ProducerModel.ODisc PE v ok) (y_pt _ _ y)) /\
  In (ProducerModel.OSend PE u 0 (ProducerModel.PSelf u) true) (y_pt _ _ y) /\
  In (ConsumerModel.XMsgEnd CE (Some ConsumerModel.XHandshake)) (y_ct _ _ y).
Proof.
  exists fair_server, peer, fair_wires, 4, fair, (after fair_wires 4 true disturbed fair).
  split; [apply wires_compatible|]. split; [apply begin_fresh|].
  split; [apply (after_reach fair_wires 4 true); vm_compute; reflexivity|].
  split. { intros v n p. apply (PropProducer.none_in (fun o => match o with ProducerModel.OSend _ _ _ _ ok => negb ok | _ => false end)); [|reflexivity]. vm_compute. reflexivity. }
  split. { intros v n p. apply (PropProducer.none_in (fun o => match o with ProducerModel.OUnpacked _ _ _ _ => true | _ => false end)); [|reflexivity]. vm_compute. reflexivity. }
  split. { intros v ok. apply (PropProducer.none_in (fun o => match o with ProducerModel.ODisc _ _ _ => true | _ => false end)); [|reflexivity]. vm_compute. reflexivity. }
  split; [vm_compute; tauto|]. vm_compute. tauto.
Qed.
Print Assumptions C41_broadcast_refuted.
