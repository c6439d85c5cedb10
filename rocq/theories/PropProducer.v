(** Properties C27-C35 and C47-C49: the generated Rust producer.

    All statements are about the trace of a run: [run E w es] is what the listener
    does, in order, when it is started in the world [w] and receives the events
    [es].  [E] is arbitrary: every protocol, every workflow, every transport server
    and every user handler is an instance. *)
From Coq Require Import List Arith NArith Bool Lia.
From Coq Require Import Strings.Byte.
From Verif Require Import Bytes WireModel FrameModel ProducerModel ProducerProofs ProducerInv
  ProducerMore ProducerFrame ProducerSeg ProducerStop.
Import ListNotations.
Open Scope N_scope.

Definition run (E : env) (w : e_world E) (es : list event) : list (out E) :=
  fst (listen E es (start E w)).

(** The listener has run through [es] and waits for further events in state [s]. *)
Definition runs_to (E : env) (w : e_world E) (es : list event) (t : list (out E)) (s : st E) : Prop :=
  listen E es (start E w) = (t, (s, PGo true)).

(** [u] is connected after the trace [pre]; [l] is what happened since. *)
Definition connected (E : env) (u : uuid) (pre l : list (out E)) : Prop :=
  exists a ids bs, pre = a ++ OConnected E u ids bs :: l /\ forall o, In o l -> ~ mentions E u o.

(** ** A concrete producer for the examples

    Message 1 is the self key, 2 the hash request, 10 a request with two actions
    (the first with a mandatory, the second with an optional broadcast), 11 a
    request with one action and a mandatory broadcast, 20 a beacon.  The handler
    answers 7 and broadcasts 8 to all consumers.  Packages for the consumers in
    [bad] cannot be sent; [dok] is the server's answer to a disconnect. *)
Definition demo (is : istrategy) (cs : cstrategy) (bad : list uuid) (dok : bool) : env := {|
  e_world := unit; e_msg := N * bytes; e_user := N;
  e_get := fun id b => if existsb (N.eqb id) [1; 2; 10; 11; 20] then Ok (id, b) else Err EUnknownMsg;
  e_sig := 5;
  e_self := fun m => if fst m =? 1 then Some [Some (snd m)] else None;
  e_hash := fun m => if fst m =? 2 then Some (firstn 1 (snd m), skipn 1 (snd m)) else None;
  e_request := fun m => if fst m =? 10 then Some 0%nat else if fst m =? 11 then Some 1%nat else None;
  e_beacon := fun m => if fst m =? 20 then Some 0%nat else None;
  e_requests := fun r => match r with 0%nat => [[false]; [true]] | _ => [[false]] end;
  e_events := fun _ => [false];
  e_connected := [false]; e_disconnected := [true];
  e_self_opt := [false]; e_assigned_opt := [true; false];
  e_phash := [x0a]; e_whash := [x0b];
  e_is := is; e_cs := cs;
  w_pack := fun w p => (w, true);
  w_send := fun w u seq p => (w, negb (existsb (N.eqb u) bad));
  w_disconnect := fun w u => (w, dok);
  w_request := fun w r i ids m => (w, match snd m with
     | x01 :: _ => HErr 99
     | x02 :: _ => HAct 1 7 [None]
     | _ => HAct 0 7 [Some (map i_uuid ids, 8)]
     end);
  w_beacon := fun w b i ids m => (w, true);
  w_event := fun w n ids => (w, Some [Some (map i_uuid ids, 50)]);
  w_connected := fun w i ids => (w, Some [Some (map i_uuid ids, 100)]);
  w_disconnected := fun w i ids => (w, Some [None]);
  w_error := fun w e u i => (w, true);
  w_ready := fun w => (w, true);
  w_deferred := fun w => w |}.

Definition msg (id seq : N) (body : bytes) : bytes := pack id 5 seq 0 body.
Definition self_msg := msg 1 0 [x61].
Definition hash_msg := msg 2 1 [x0a; x0b].
Definition bad_hash_msg := msg 2 1 [x0a; x0c].

(** a consumer connects, is confirmed, identifies itself and sends its hashes *)
Definition hello (u : uuid) : list event :=
  [VConnected u; VConfirm; VReceived u self_msg; VReceived u hash_msg].

Definition plain_demo := demo IIgnore SEmit [] true.

(** Traces of the concrete producer are compared by computation. *)
Definition out_dec is cs bad dok (a b : out (demo is cs bad dok)) : {a = b} + {a <> b}.
Proof.
  assert (Db : forall x y : bytes, {x = y} + {x <> y}) by (apply list_eq_dec, byte_eq_dec).
  assert (Dk : forall x y : option key, {x = y} + {x <> y}).
  { repeat decide equality; apply Db. }
  assert (Di : forall x y : list ident, {x = y} + {x <> y}).
  { apply list_eq_dec. decide equality; try apply Dk; try apply N.eq_dec; apply bool_dec. }
  assert (Dc : forall x y : list (bcast N), {x = y} + {x <> y}).
  { apply list_eq_dec. repeat decide equality; apply N.eq_dec. }
  assert (Dr : forall x y : hres N, {x = y} + {x <> y}).
  { decide equality; try apply N.eq_dec; try apply Nat.eq_dec; apply Dc. }
  assert (Dm : forall x y : N * bytes, {x = y} + {x <> y}).
  { decide equality; apply N.eq_dec. }
  assert (Dh : forall x y : header, {x = y} + {x <> y}).
  { decide equality; apply N.eq_dec. }
  assert (Dp : forall x y : payload N, {x = y} + {x <> y}).
  { decide equality; try apply N.eq_dec; apply bool_dec. }
  assert (De : forall x y : perr, {x = y} + {x <> y}) by (decide equality; apply N.eq_dec).
  assert (Do : forall x y : option (list (bcast N)), {x = y} + {x <> y}) by (decide equality; apply Dc).
  assert (Du : forall x y : option uuid, {x = y} + {x <> y}) by (decide equality; apply N.eq_dec).
  decide equality; first [apply N.eq_dec | apply Nat.eq_dec | apply bool_dec | apply Di | apply Do |
    apply Dm | apply Dh | apply Dr | apply Dp | apply De | apply Du].
Defined.

Lemma run_is is cs bad dok es tr :
  (if list_eq_dec (out_dec is cs bad dok) (run (demo is cs bad dok) tt es) tr then true else false) = true ->
  run (demo is cs bad dok) tt es = tr.
Proof. destruct (list_eq_dec _ _ _); congruence. Qed.

Definition final (E : env) (w : e_world E) (es : list event) : st E := fst (snd (listen E es (start E w))).

Lemma runs_final E w es :
  match snd (snd (listen E es (start E w))) with PGo true => true | _ => false end = true ->
  runs_to E w es (run E w es) (final E w es).
Proof.
  unfold runs_to, run, final. destruct (listen E es (start E w)) as [t [s [[|]|x|]]]; cbn; congruence.
Qed.

Lemma stops_final E w es :
  match snd (snd (listen E es (start E w))) with PStop EServer => true | _ => false end = true ->
  listen E es (start E w) = (run E w es, (final E w es, PStop EServer)).
Proof.
  unfold run, final. destruct (listen E es (start E w)) as [t [s [[|]|[]|]]]; cbn; congruence.
Qed.

Lemma none_in {A} (f : A -> bool) l x : existsb f l = false -> f x = true -> ~ In x l.
Proof.
  intros H Hx Hin. assert (existsb f l = true); [|congruence]. apply existsb_exists. eauto.
Qed.

Definition is_call {E} (u : uuid) (o : out E) : bool :=
  match o with OCall _ v _ _ _ _ => v =? u | _ => false end.
Definition is_disc {E} (u : uuid) (o : out E) : bool :=
  match o with ODisc _ v _ => v =? u | _ => false end.

Lemma some_call E u (l : list (out E)) : existsb (is_call u) l = true ->
  exists r m ids res, In (OCall E u r m ids res) l.
Proof.
  intros H. apply existsb_exists in H. destruct H as (o & Ho & H). destruct o; cbn in H; try discriminate.
  apply N.eqb_eq in H. subst. eauto.
Qed.
Lemma some_disc E u (l : list (out E)) : existsb (is_disc u) l = true -> exists ok, In (ODisc E u ok) l.
Proof.
  intros H. apply existsb_exists in H. destruct H as (o & Ho & H). destruct o; cbn in H; try discriminate.
  apply N.eqb_eq in H. subst. eauto.
Qed.

(** ** Connections and the trace *)
Section Conn.
Variable E : env.

Lemma fold_quiet_mention u l : (forall o, In o l -> ~ mentions E u o) -> forall acc,
  fold_left (push E u) l acc = match acc with Some l0 => Some (l0 ++ l) | None => None end.
Proof.
  induction l as [|o l IH]; intros H acc; cbn [fold_left].
  - destruct acc; rewrite ?app_nil_r; reflexivity.
  - rewrite IH by (intros x Hx; apply H; right; exact Hx).
    assert (Ho := H o (or_introl eq_refl)). unfold push. destruct o; cbn [mentions] in Ho;
      try (destruct acc; rewrite <- ?app_assoc; reflexivity).
    + destruct (N.eqb_spec u0 u); [tauto|]. destruct acc; rewrite <- ?app_assoc; reflexivity.
    + destruct (N.eqb_spec u0 u); [tauto|]. destruct acc; rewrite <- ?app_assoc; reflexivity.
Qed.

Lemma connected_since u pre l : connected E u pre l <-> since E u pre = Some l.
Proof.
  split.
  - intros (a & ids & bs & -> & H). unfold since. rewrite fold_left_app. cbn [fold_left push].
    rewrite N.eqb_refl, (fold_quiet_mention u l H). reflexivity.
  - apply since_split.
Qed.

Lemma not_connected_since u pre : (forall l, ~ connected E u pre l) <-> since E u pre = None.
Proof.
  split.
  - intros H. destruct (since E u pre) as [l|] eqn:S; auto. apply connected_since in S. destruct (H l S).
  - intros H l Hl. apply connected_since in Hl. congruence.
Qed.

Lemma is_connected_since u pre : (exists l, connected E u pre l) <-> since E u pre <> None.
Proof.
  split.
  - intros [l H]. apply connected_since in H. congruence.
  - destruct (since E u pre) as [l|] eqn:S; [|congruence]. exists l. apply connected_since. auto.
Qed.

Lemma run_at w es pre o post : run E w es = pre ++ o :: post -> ok_at E pre o.
Proof. intros H. eapply (listen_good E w es). exact H. Qed.

Lemma run_after w es pre o post : run E w es = pre ++ o :: post -> after E o post.
Proof. intros H. pose proof (listen_fut E es (start E w)) as F. eapply F. exact H. Qed.

End Conn.

(** ** C28 *)

(** Whenever a user's handler of a request or beacon runs for a consumer, this
    consumer is connected and since it connected it was sent the confirmation, one
    of its messages carried the hashes of this very protocol and workflow, and it
    has a key: from one of its own self-key messages or set by the application. *)
Theorem C28_handlers_only_for_authenticated E w es pre o post u :
  run E w es = pre ++ o :: post ->
  (exists r m ids res, o = OCall E u r m ids res) \/ (exists b m ids ok, o = OBeacon E u b m ids ok) ->
  exists l, connected E u pre l /\
    In (OSend E u 0 PConfirm true) l /\
    (exists h m, In (OHandle E u h m) l /\ e_hash E m = Some (e_phash E, e_whash E)) /\
    ((exists h m k, In (OHandle E u h m) l /\ e_self E m = Some k) \/ In (OSetKey E u) l).
Proof.
  intros H Ho. apply run_at in H.
  assert (A : authentic E u pre).
  { destruct Ho as [(r & m & ids & res & ->)|(b & m & ids & ok & ->)]; apply H. }
  destruct A as (l & Hl & H1 & H2 & H3 & _). exists l. rewrite connected_since.
  split; [exact Hl|]. split; [exact H1|]. split; [exact H2|exact H3].
Qed.
Print Assumptions C28_handlers_only_for_authenticated.

(** The handler is called with the message that is being processed, and the
    handler is the one declared for it. *)
Theorem C28_handler_gets_its_message E w es pre o post :
  run E w es = pre ++ o :: post ->
  match o with
  | OCall _ u r m _ _ => e_request E m = Some r /\ exists pre' h, pre = pre' ++ [OHandle E u h m]
  | OBeacon _ u b m _ _ => e_beacon E m = Some b /\ exists pre' h, pre = pre' ++ [OHandle E u h m]
  | _ => True
  end.
Proof.
  intros H. apply run_at in H. destruct o; auto; destruct H as ((_ & Hr & h & pre' & ->) & _); split; eauto.
Qed.
Print Assumptions C28_handler_gets_its_message.

Example C28_example : exists pre post r m ids res,
  run plain_demo tt (hello 4 ++ [VReceived 4 (msg 10 12 [])]) =
    pre ++ OCall plain_demo 4 r m ids res :: post.
Proof.
  destruct (some_call plain_demo 4 (run plain_demo tt (hello 4 ++ [VReceived 4 (msg 10 12 [])])))
    as (r & m & ids & res & H); [vm_compute; reflexivity|].
  apply in_split in H. destruct H as (pre & post & ->). exists pre, post, r, m, ids, res. reflexivity.
Qed.

(** a consumer that skips the self key or the hash is expelled, not served *)
Example C28_example_expelled :
  let served es := existsb (is_call 4) (run plain_demo tt es) in
  served [VConnected 4; VConfirm; VReceived 4 hash_msg; VReceived 4 (msg 10 12 [])] = false /\
  served [VConnected 4; VConfirm; VReceived 4 self_msg; VReceived 4 (msg 10 12 [])] = false /\
  served [VConnected 4; VReceived 4 self_msg; VReceived 4 hash_msg; VReceived 4 (msg 10 12 [])] = false.
Proof. vm_compute. auto. Qed.

(** ** C49 *)

(** With a strategy that insists on assigned keys, handlers run only for consumers
    to which the application has assigned a key during this connection. *)
Theorem C49_handlers_only_for_assigned E w es pre o post u :
  e_is E = IEmit \/ e_is E = IDisc \/ e_is E = IEmitDisc ->
  run E w es = pre ++ o :: post ->
  (exists r m ids res, o = OCall E u r m ids res) \/ (exists b m ids ok, o = OBeacon E u b m ids ok) ->
  exists l, connected E u pre l /\ In (OSetAssigned E u) l.
Proof.
  intros Hs H Ho. apply run_at in H.
  assert (A : authentic E u pre).
  { destruct Ho as [(r & m & ids & res & ->)|(b & m & ids & ok & ->)]; apply H. }
  destruct A as (l & Hl & _ & _ & _ & Ha). exists l. rewrite connected_since. split; [exact Hl|].
  apply Ha. unfold strict. destruct Hs as [->|[->| ->]]; reflexivity.
Qed.
Print Assumptions C49_handlers_only_for_assigned.

(** Under the other two strategies nothing has to be assigned. *)
Example C49_example :
  let served is es := existsb (is_call 4) (run (demo is SEmit [] true) tt es) in
  let ask := [VReceived 4 (msg 10 12 [])] in
  served IEmit (hello 4 ++ VAssign 4 [None; Some []] true :: ask) = true /\
  served IEmit (hello 4 ++ ask) = false /\
  served IDisc (hello 4 ++ ask) = false /\
  served IEmitDisc (hello 4 ++ ask) = false /\
  served ILog (hello 4 ++ ask) = true /\
  served IIgnore (hello 4 ++ ask) = true.
Proof. vm_compute. auto 6. Qed.

(** ** C29 *)

(** When the producer asks the server to disconnect a consumer, the consumer is
    connected and the producer has not yet asked for it in this connection. *)
Theorem C29_disconnect_at_most_once E w es pre u ok post :
  run E w es = pre ++ ODisc E u ok :: post ->
  exists l, connected E u pre l /\ forall ok', ~ In (ODisc E u ok') l.
Proof.
  intros H. apply run_at in H. destruct H as (l & Hl & Hn). exists l. rewrite connected_since. auto.
Qed.
Print Assumptions C29_disconnect_at_most_once.

(** two reasons to disconnect (twice a wrong hash), one request to the server *)
Example C29_example :
  length (filter (is_disc 4)
    (run plain_demo tt [VConnected 4; VConfirm; VReceived 4 (bad_hash_msg ++ bad_hash_msg)])) = 1%nat.
Proof. vm_compute. reflexivity. Qed.

(** ** C30 *)

(** The claim as stated is false: the loop over the messages of one chunk goes on
    after the consumer was disconnected, and later messages of the same chunk
    reach handlers and are answered. *)
Theorem C30_refuted : exists E w es pre u ok mid r m ids res rest,
  run E w es = pre ++ ODisc E u ok :: mid ++ OCall E u r m ids res :: OSend E u 13 (PAnswer (answer_of E res)) true :: rest /\
  forall o, In o mid -> ~ mentions E u o.
Proof.
  exists plain_demo, tt,
    [VConnected 4; VConfirm; VReceived 4 self_msg; VReceived 4 (hash_msg ++ bad_hash_msg ++ msg 10 13 [])].
  exists [OConnected plain_demo 4 [] (Some [Some ([], 100)]); ODeferred plain_demo;
     OSend plain_demo 4 0 PConfirm true;
     OHandle plain_demo 4 (get_header self_msg) (1, [x61]); OSend plain_demo 4 0 (PSelf 4) true;
     OHandle plain_demo 4 (get_header hash_msg) (2, [x0a; x0b]); OSend plain_demo 4 1 (PHash true) true;
     OHandle plain_demo 4 (get_header bad_hash_msg) (2, [x0a; x0c]); OSend plain_demo 4 1 (PHash false) true],
    4, true,
    [OError plain_demo (ENoKey 4) (Some 4); OHandle plain_demo 4 (get_header (msg 10 13 [])) (10, [])].
  exists 0%nat, (10, []), [mkIdent 4 (Some [Some [x61]]) None true], (HAct 0 7 [Some ([4], 8)]).
  exists [OSend plain_demo 4 0 (PBroadcast 8) true; ODeferred plain_demo].
  split; [apply run_is; vm_compute; reflexivity|].
  intros o [<-|[<-|[]]] [].
Qed.
Print Assumptions C30_refuted.

Section C30.
Variable E : env.

Lemma connected_step u s t s' r : step E (VConnected u) s = (t, (s', r)) ->
  (t = [] /\ r <> PGo true) \/ exists ids bs t', t = OConnected E u ids bs :: t'.
Proof.
  cbn [step]. unfold bindp at 1, add_connection. unfold bindp at 1, look.
  destruct (find E u (s_tab E s)) as [c|].
  - cbn. intros [= <- <- <-]. left. split; [auto|discriminate].
  - unfold bindp at 1, get_tab. unfold bindp at 1, world.
    destruct (w_connected E (s_w E s) (ident_of E u (consumer_new E)) (idents E (s_tab E s))) as [w bs].
    unfold bindp at 1, emit. unfold bindp.
    destruct (emit_event E (e_connected E) bs _) as [t1 [s1 [a|e|]]]; cbn; intros [= <- <- <-]; right; eauto.
Qed.

Lemma listen_cons e es s : listen E (e :: es) s =
  bindp E (step E e) (fun go => if go then listen E es else ret E false) s.
Proof. reflexivity. Qed.

Lemma listen_one_go e s t s' b : step E e s = (t, (s', PGo b)) ->
  forall es, fst (listen E (e :: es) s) = t ++ (if b then fst (listen E es s') else []).
Proof.
  intros H es. rewrite listen_cons. unfold bindp. rewrite H. destruct b.
  - destruct (listen E es s') as [t2 x]. reflexivity.
  - cbn. rewrite app_nil_r. reflexivity.
Qed.

Lemma step_inv e tr s t s' b : Good E (ok_at E) tr -> INV E tr s -> step E e s = (t, (s', PGo b)) ->
  Good E (ok_at E) (tr ++ t) /\ INV E (tr ++ t) s'.
Proof.
  intros Hg HI St. pose proof (T_step E e tr s Hg HI) as W. unfold wp in W. rewrite St in W. exact W.
Qed.

Lemma off_listen u es : forall tr s, Good E (ok_at E) tr -> INV E tr s -> out_of_service E u s ->
  forall pre o post, fst (listen E es s) = pre ++ o :: post -> serves E u o ->
  exists ids bs, In (OConnected E u ids bs) pre.
Proof.
  induction es as [|e es IH]; intros tr s Hg HI Hs pre o post Ht Ho.
  { cbn in Ht. destruct pre; discriminate. }
  assert (Hdec : e = VConnected u \/ e <> VConnected u).
  { destruct e; try (right; discriminate). destruct (N.eq_dec u0 u); [left|right]; congruence. }
  rewrite listen_cons in Ht. unfold bindp in Ht.
  destruct (step E e s) as [t [s' r]] eqn:St.
  destruct Hdec as [->|Hne].
  - apply connected_step in St. destruct St as [[-> Hr]|(ids & bs & t' & ->)].
    + destruct r as [[|]|x|]; [congruence| | |]; cbn in Ht; destruct pre; discriminate.
    + exists ids, bs. assert (exists rest, OConnected E u ids bs :: rest = pre ++ o :: post) as [rest Hr].
      { destruct r as [[|]|x|].
        - destruct (listen E es s') as [t2 x2]. cbn [fst] in Ht. exists (t' ++ t2). exact Ht.
        - cbn in Ht. rewrite app_nil_r in Ht. eauto.
        - eauto.
        - eauto. }
      destruct pre as [|x pre]; cbn in Hr; injection Hr as <- Hr; [destruct Ho|left; reflexivity].
  - pose proof (off_step E u e s (proj1 HI) Hs Hne) as W. unfold wp in W. rewrite St in W. cbn [fst snd] in W.
    destruct W as [Hs' Hno].
    assert (Hcut : forall rest, t ++ rest = pre ++ o :: post -> exists p, pre = t ++ p /\ rest = p ++ o :: post).
    { clear -Hno Ho. revert pre. induction t as [|x t IH]; intros pre rest H.
      - exists pre. auto.
      - destruct pre as [|y pre]; cbn in H; injection H as <- H.
        + destruct (Hno x (or_introl eq_refl) Ho).
        + destruct (IH (fun z Hz => Hno z (or_intror Hz)) pre rest H) as (p & -> & ->). exists p. auto. }
    destruct r as [[|]|x|].
    + destruct (listen E es s') as [t2 x2] eqn:L2. cbn [fst] in Ht.
      destruct (Hcut t2 Ht) as (p & -> & ->).
      assert (L2' : fst (listen E es s') = p ++ o :: post) by (rewrite L2; reflexivity).
      destruct (step_inv _ _ _ _ _ _ Hg HI St) as [Hg' HI'].
      destruct (IH _ s' Hg' HI' Hs' p o post L2' Ho) as (ids & bs & Hin).
      exists ids, bs. apply in_or_app. auto.
    + cbn in Ht. destruct (Hcut [] Ht) as (p & _ & Hp). destruct p; discriminate.
    + cbn [fst] in Ht. destruct (Hcut []) as (p & _ & Hp); [rewrite app_nil_r; exact Ht|]. destruct p; discriminate.
    + cbn [fst] in Ht. destruct (Hcut []) as (p & _ & Hp); [rewrite app_nil_r; exact Ht|]. destruct p; discriminate.
Qed.

End C30.

(** What holds: once an event has been processed during which the consumer was
    disconnected, no later event leads to any processing of its messages, handler
    call or answer, until it connects anew.  Missing from C30: the rest of the chunk
    during whose processing the decision was made. *)
Theorem C30_later_events_not_served_partial E w es1 es2 t1 s1 u l ok :
  runs_to E w es1 t1 s1 -> connected E u t1 l -> In (ODisc E u ok) l ->
  forall pre o post, fst (listen E es2 s1) = pre ++ o :: post ->
  (exists h m, o = OHandle E u h m) \/ (exists r m ids res, o = OCall E u r m ids res) \/
  (exists b m ids k, o = OBeacon E u b m ids k) \/
  (exists seq p k, o = OSend E u seq p k /\ is_answer p = true) ->
  exists ids bs, In (OConnected E u ids bs) pre.
Proof.
  intros Hr Hc Hd pre o post Ht Ho. apply connected_since in Hc.
  pose proof (listen_inv _ _ _ _ _ _ Hr) as HI.
  pose proof (listen_good E w es1) as Hg. rewrite Hr in Hg. cbn [fst] in Hg.
  eapply (off_listen E u es2 t1 s1 Hg HI); [|exact Ht|].
  - unfold out_of_service. destruct HI as [_ HI]. specialize (HI u).
    destruct (find E u (s_tab E s1)) as [c|]; [|exact I].
    destruct HI as (l' & Hl' & _ & _ & _ & Hn & _).
    destruct (c_disc E c); [reflexivity|]. exfalso. assert (l' = l) by congruence. subst l'.
    apply (Hn eq_refl ok). exact Hd.
  - destruct Ho as [(h & m & ->)|[(r & m & ids & res & ->)|[(b & m & ids & k & ->)|(seq & p & k & -> & Hp)]]]; cbn; auto.
Qed.
Print Assumptions C30_later_events_not_served_partial.

Example C30_example :
  let es := [VConnected 4; VConfirm; VReceived 4 bad_hash_msg] in
  exists s l ok, runs_to plain_demo tt es (run plain_demo tt es) s /\
  connected plain_demo 4 (run plain_demo tt es) l /\ In (ODisc plain_demo 4 ok) l /\
  fst (listen plain_demo [VReceived 4 self_msg; VReceived 4 hash_msg; VReceived 4 (msg 10 3 [])] s) = [].
Proof.
  cbv zeta. set (es := [VConnected 4; VConfirm; VReceived 4 bad_hash_msg]).
  destruct (since plain_demo 4 (run plain_demo tt es)) as [l|] eqn:S.
  2:{ assert (match since plain_demo 4 (run plain_demo tt es) with Some _ => true | None => false end = true)
        by (vm_compute; reflexivity). rewrite S in H. discriminate. }
  assert (D : existsb (is_disc 4) l = true).
  { assert (match since plain_demo 4 (run plain_demo tt es) with Some l => existsb (is_disc 4) l | None => false end = true)
      by (vm_compute; reflexivity). rewrite S in H. exact H. }
  apply some_disc in D. destruct D as [ok D].
  exists (final plain_demo tt es), l, ok. split; [apply runs_final; vm_compute; reflexivity|].
  split; [apply connected_since; exact S|]. split; [exact D|].
  assert (L : length (fst (listen plain_demo [VReceived 4 self_msg; VReceived 4 hash_msg; VReceived 4 (msg 10 3 [])]
                (final plain_demo tt es))) = 0%nat) by (vm_compute; reflexivity).
  apply length_zero_iff_nil in L. exact L.
Qed.

(** ** C31 *)

(** Every answer goes to the consumer whose message is being processed and carries
    the sequence number of that message; it is the first answer to it. *)
Theorem C31_answers_addressed E w es pre u seq p ok post :
  run E w es = pre ++ OSend E u seq p ok :: post -> is_answer p = true ->
  exists pre' h m mid, pre = pre' ++ OHandle E u h m :: mid /\ seq = h_seq h /\
    forall o, In o mid ->
      (forall v h' m', o <> OHandle E v h' m') /\
      (forall v seq' p' ok', o = OSend E v seq' p' ok' -> is_answer p' = false).
Proof.
  intros H Hp. apply run_at in H. destruct (H Hp) as (pre' & h & m & mid & -> & Hs & Hm).
  exists pre', h, m, mid. split; [reflexivity|]. split; [exact Hs|]. intros o Ho.
  eapply forallb_forall in Hm; [|exact Ho]. split.
  - intros v h' m' ->. discriminate.
  - intros v seq' p' ok' ->. cbn in Hm. apply negb_true_iff in Hm. exact Hm.
Qed.
Print Assumptions C31_answers_addressed.

(** A message sent with sequence 0 that is not an answer is the confirmation or a
    broadcast; all answers have one of these four forms. *)
Lemma answer_forms {X} (p : payload X) : is_answer p = true <->
  (exists v, p = PSelf v) \/ (exists b, p = PHash b) \/ p = PBeacon \/ exists x, p = PAnswer x.
Proof.
  destruct p; cbn; split; intros H; try reflexivity; try discriminate; eauto 6;
    destruct H as [[? H]|[[? H]|[H|[? H]]]]; discriminate.
Qed.

(** Once a request handler has returned, its response or error is sent to the
    requester with the sequence of the request, at once, unless a message cannot
    be packed. *)
Theorem C31_requests_answered E w es pre u r m ids res post :
  run E w es = pre ++ OCall E u r m ids res :: post ->
  exists pre' h, pre = pre' ++ [OHandle E u h m] /\
   ((exists ok rest, post = OSend E u (h_seq h) (PAnswer (answer_of E res)) ok :: rest) \/
    (exists seq p rest, post = OUnpacked E (Some u) seq p :: rest)).
Proof.
  intros H. pose proof (run_at _ _ _ _ _ _ H) as Ha. pose proof (run_after _ _ _ _ _ _ H) as Hf.
  destruct Ha as ((_ & _ & h & pre' & ->) & _). exists pre', h. split; [reflexivity|].
  assert (Hseq : forall seq ok rest, post = OSend E u seq (PAnswer (answer_of E res)) ok :: rest -> seq = h_seq h).
  { intros seq ok rest ->.
    replace ((pre' ++ [OHandle E u h m]) ++ OCall E u r m ids res :: OSend E u seq (PAnswer (answer_of E res)) ok :: rest)
      with (((pre' ++ [OHandle E u h m]) ++ [OCall E u r m ids res]) ++ OSend E u seq (PAnswer (answer_of E res)) ok :: rest)
      in H by (rewrite <- !app_assoc; reflexivity).
    apply run_at in H. destruct (H eq_refl) as (q & h' & m' & mid & Hq & -> & Hm).
    destruct mid as [|y mid] using rev_ind.
    - apply app_inj_tail in Hq. destruct Hq as [_ Hq]. discriminate.
    - clear IHmid. rewrite app_comm_cons, app_assoc in Hq. apply app_inj_tail in Hq. destruct Hq as [Hq <-].
      destruct mid as [|z mid] using rev_ind.
      + apply app_inj_tail in Hq. destruct Hq as [_ Hq]. congruence.
      + clear IHmid. rewrite app_comm_cons, app_assoc in Hq. apply app_inj_tail in Hq. destruct Hq as [_ <-].
        rewrite !forallb_app in Hm. cbn in Hm. rewrite andb_false_r in Hm. discriminate. }
  destruct Hf as (seq & [(y & rest & _ & ->)|[(rest & ->)|[(rest & ->)|(os & rest & -> & _)]]]).
  - right. eauto.
  - right. eauto.
  - left. specialize (Hseq _ _ _ eq_refl). subst seq. eauto.
  - left. specialize (Hseq _ _ _ eq_refl). subst seq. eauto.
Qed.
Print Assumptions C31_requests_answered.

(** The messages of a consumer are processed in the order in which they arrived:
    a received chunk leads to the processing of exactly the messages it completes,
    in their order, and of no others (of a prefix of them if the listener ends). *)
Theorem C31_in_arrival_order E u data s c b t s' r :
  find E u (s_tab E s) = Some c -> c_conf E c = true -> c_disc E c = false ->
  chunk (e_get E) (e_sig E) (c_buf E c) data = (COk, b) ->
  step E (VReceived u data) s = (t, (s', r)) ->
  exists k, handled E t = map (pair u) (firstn k (rb_queue b)) /\
    (r = PGo true -> firstn k (rb_queue b) = rb_queue b).
Proof. apply received_handled. Qed.
Print Assumptions C31_in_arrival_order.

(** three messages in one chunk, one of them an error: three answers in order *)
Example C31_example :
  flat_map (fun o => match o with OSend _ u seq (PAnswer x) ok => [(u, seq, x, ok)] | _ => [] end)
   (run plain_demo tt (hello 4 ++ hello 9 ++
      [VReceived 9 (msg 10 12 [] ++ msg 10 11 [x01] ++ msg 11 13 [x02]); VReceived 4 (msg 10 30 [])])) =
  [(9, 12, 7, true); (9, 11, 99, true); (9, 13, 7, true); (4, 30, 7, true)].
Proof. vm_compute. reflexivity. Qed.

(** ** C32 *)

(** An event that concerns consumer [u] changes no other consumer's record, and no
    handler of another consumer runs, no other consumer is answered, disconnected,
    identified or assigned. *)
Theorem C32_consumers_isolated E u e s t s' r v :
  (e = VConnected u \/ e = VDisconnected u \/ (exists d, e = VReceived u d) \/
   (exists k ov, e = VKey u k ov) \/ (exists k ov, e = VAssign u k ov)) ->
  step E e s = (t, (s', r)) -> v <> u ->
  find E v (s_tab E s') = find E v (s_tab E s) /\
  forall o, In o t ->
    ~ mentions E v o /\ (forall h m, o <> OHandle E v h m) /\
    (forall q m ids res, o <> OCall E v q m ids res) /\ (forall b m ids ok, o <> OBeacon E v b m ids ok) /\
    (forall ok, o <> ODisc E v ok) /\ o <> OSetKey E v /\ o <> OSetAssigned E v /\
    (forall seq p ok, o = OSend E v seq p ok -> is_answer p = false).
Proof.
  intros He St Hv.
  assert (Ht : forall x, target E s e = Some x -> x = u).
  { destruct He as [->|[->|[(d & ->)|[(k & ov & ->)|(k & ov & ->)]]]]; cbn; congruence. }
  pose proof (frame_one E u e s Ht) as W. unfold wp in W. rewrite St in W. cbn [fst snd] in W.
  destruct W as [W1 W2]. split; [auto|]. intros o Ho.
  assert (Ha : about E o <> Some v) by (intros Ha; apply Hv; eapply W2; eauto).
  repeat split; intros; intros Hx || idtac;
    try (subst o; apply Ha; reflexivity).
  - destruct o; cbn in Hx; subst; auto; apply Ha; reflexivity.
  - subst o. cbn in Ha. destruct (is_answer p); congruence.
Qed.
Print Assumptions C32_consumers_isolated.

(** consumer 9 is expelled while 4 stays served *)
Example C32_example :
  let t := run plain_demo tt (hello 4 ++ [VConnected 9; VConfirm; VReceived 9 bad_hash_msg; VReceived 4 (msg 10 30 [])]) in
  existsb (fun o => match o with ODisc _ 9 _ => true | _ => false end) t = true /\
  existsb (fun o => match o with ODisc _ 4 _ => true | _ => false end) t = false /\
  existsb (fun o => match o with OSend _ 4 30 (PAnswer _) true => true | _ => false end) t = true.
Proof. vm_compute. auto. Qed.

(** ** C33 *)

(** The claim as stated is false: whether a consumer has a key is looked up once per
    chunk.  Self key, hashes and a request in one chunk: the consumer is expelled.
    The same bytes in two chunks: it is served. *)
Theorem C33_refuted : exists E w es u a b,
  let one := run E w (es ++ [VReceived u (a ++ b)]) in
  let two := run E w (es ++ [VReceived u a; VReceived u b]) in
  (exists ok, In (ODisc E u ok) one) /\ (forall r m ids res, ~ In (OCall E u r m ids res) one) /\
  (forall ok, ~ In (ODisc E u ok) two) /\ (exists r m ids res, In (OCall E u r m ids res) two).
Proof.
  exists plain_demo, tt, [VConnected 4; VConfirm], 4, (self_msg ++ hash_msg), (msg 10 12 []). cbv zeta.
  split; [|split; [|split]].
  - apply some_disc. vm_compute. reflexivity.
  - intros r m ids res. apply (none_in (is_call 4)); [|reflexivity]. vm_compute. reflexivity.
  - intros ok. apply (none_in (is_disc 4)); [|reflexivity]. vm_compute. reflexivity.
  - apply some_call. vm_compute. reflexivity.
Qed.
Print Assumptions C33_refuted.

(** What holds: from the moment the consumer is confirmed and has its key, and as
    long as its bytes are well formed and it is not disconnected, everything the
    producer does and the state it ends in are the same for every segmentation.
    Missing from C33: the chunk that carries the self key, and the rest of a chunk
    during which the consumer is disconnected. *)
Theorem C33_segmentation_partial E u ds s c t s' c' b :
  ds <> [] ->
  find E u (s_tab E s) = Some c -> c_conf E c = true -> c_disc E c = false -> c_key E c <> None ->
  chunk (e_get E) (e_sig E) (c_buf E c) (concat ds) = (COk, b) ->
  listen E [VReceived u (concat ds)] s = (t, (s', PGo true)) ->
  find E u (s_tab E s') = Some c' -> c_disc E c' = false ->
  listen E (map (VReceived u) ds) s = (t, (s', PGo true)).
Proof. apply received_many. Qed.
Print Assumptions C33_segmentation_partial.

(** hash, two requests and a beacon, cut in the middle of packages *)
Example C33_example :
  let s := final plain_demo tt [VConnected 4; VConfirm; VReceived 4 self_msg] in
  let data := hash_msg ++ msg 10 12 [] ++ msg 20 13 [x05] ++ msg 11 14 [] in
  let ds := [firstn 3 data; firstn 40 (skipn 3 data); skipn 43 data] in
  match find plain_demo 4 (s_tab plain_demo s) with
  | Some c =>
    c_conf _ c && negb (c_disc _ c) && has_key _ c &&
    match chunk (e_get plain_demo) 5 (c_buf _ c) (concat ds) with (COk, _) => true | _ => false end &&
    match listen plain_demo [VReceived 4 (concat ds)] s with
    | (t, (s', PGo true)) =>
      Nat.eqb (length (filter (is_call 4) t)) 2 &&
      match find plain_demo 4 (s_tab plain_demo s') with Some c' => negb (c_disc _ c') | None => false end
    | _ => false
    end
  | None => false
  end = true.
Proof. vm_compute. reflexivity. Qed.

(** ** C34 *)

(** [connected] and [disconnected] alternate for each consumer, and messages are
    processed only in between. *)
Theorem C34_events_paired E w es pre o post :
  run E w es = pre ++ o :: post ->
  match o with
  | OConnected _ u _ _ => forall l, ~ connected E u pre l
  | ODisconnected _ u _ _ => exists l, connected E u pre l
  | OHandle _ u _ _ => exists l, connected E u pre l
  | OCall _ u _ _ _ _ => exists l, connected E u pre l
  | OBeacon _ u _ _ _ _ => exists l, connected E u pre l
  | _ => True
  end.
Proof.
  intros H. apply run_at in H. destruct o; auto; cbn [ok_at] in H.
  - apply not_connected_since. apply H.
  - apply is_connected_since. exact (proj1 H).
  - destruct H as (l & Hl & _). exists l. apply connected_since. auto.
  - destruct H as (((l & Hl & _) & _) & _). exists l. apply connected_since. auto.
  - destruct H as (((l & Hl & _) & _) & _). exists l. apply connected_since. auto.
Qed.
Print Assumptions C34_events_paired.

Section C34.
Variable E : env.

Lemma listen_app es1 es2 s : listen E (es1 ++ es2) s =
  bindp E (listen E es1) (fun go => if go then listen E es2 else ret E false) s.
Proof.
  revert s. induction es1 as [|e es1 IH]; intros s; cbn [app].
  - unfold bindp. cbn. destruct (listen E es2 s). reflexivity.
  - rewrite listen_cons. unfold bindp. rewrite listen_cons. unfold bindp.
    destruct (step E e s) as [t [s' [[|]|x|]]];
      [|cbn; rewrite !app_nil_r; reflexivity|reflexivity|reflexivity].
    rewrite IH. unfold bindp. destruct (listen E es1 s') as [t2 [s2 [[|]|x|]]]; cbn; auto.
    + destruct (listen E es2 s2). rewrite app_assoc. reflexivity.
    + rewrite !app_nil_r. reflexivity.
Qed.

Lemma runs_then w es t s es2 : runs_to E w es t s ->
  listen E (es ++ es2) (start E w) = (t ++ fst (listen E es2 s), snd (listen E es2 s)).
Proof. intros H. rewrite listen_app. unfold bindp. rewrite H. destruct (listen E es2 s). reflexivity. Qed.

Lemma quiet_mentions u o : quiet E o = true -> ~ mentions E u o.
Proof. destruct o; cbn; auto; discriminate. Qed.

Lemma find_connected w es t s u : runs_to E w es t s ->
  (find E u (s_tab E s) <> None <-> exists l, connected E u t l).
Proof.
  intros H. apply listen_inv in H. destruct H as [_ H]. specialize (H u). rewrite is_connected_since.
  destruct (find E u (s_tab E s)) as [c|]; [|rewrite H; tauto].
  destruct H as (l & -> & _). split; congruence.
Qed.

End C34.

(** A connection with a free uuid: the user's [connected] handler runs, once. *)
Theorem C34_connect_runs E w es t s u :
  runs_to E w es t s -> (forall l, ~ connected E u t l) ->
  exists ids bs rest, run E w (es ++ [VConnected u]) = t ++ OConnected E u ids bs :: rest /\
    forall o v, In o rest -> ~ mentions E v o.
Proof.
  intros H Hn. unfold run. rewrite (runs_then _ _ _ _ _ _ H). cbn [fst].
  assert (F : find E u (s_tab E s) = None).
  { pose proof (find_connected E w es t s u H) as Hf. destruct (find E u (s_tab E s)); auto.
    destruct (proj1 Hf) as [l Hl]; [discriminate|]. destruct (Hn l Hl). }
  cbn [listen step]. unfold bindp at 1 2, add_connection. unfold bindp at 1, look. rewrite F.
  unfold bindp at 1, get_tab. unfold bindp at 1, world.
  destruct (w_connected E (s_w E s) (ident_of E u (consumer_new E)) (idents E (s_tab E s))) as [w' bs].
  unfold bindp at 1, emit. unfold bindp.
  match goal with |- context [emit_event E (e_connected E) bs ?x] =>
    pose proof (calm_emit_event E (e_connected E) bs x) as C; unfold wp in C;
    destruct (emit_event E (e_connected E) bs x) as [t1 [s1 [a|e|]]] end;
  cbn [fst snd ret app] in *; destruct C as (Hq & _); eexists _, _, _; (split; [rewrite ?app_nil_r; reflexivity|]);
  intros o v Ho; apply quiet_mentions; eapply forallb_forall in Hq; eauto;
  rewrite ?app_nil_r in Ho; auto.
Qed.
Print Assumptions C34_connect_runs.

(** The end of a connection: the user's [disconnected] handler runs, once. *)
Theorem C34_disconnect_runs E w es t s u l :
  runs_to E w es t s -> connected E u t l ->
  exists ids bs rest, run E w (es ++ [VDisconnected u]) = t ++ ODisconnected E u ids bs :: rest /\
    forall o v, In o rest -> ~ mentions E v o.
Proof.
  intros H Hn. unfold run. rewrite (runs_then _ _ _ _ _ _ H). cbn [fst].
  assert (F : find E u (s_tab E s) <> None) by (apply (find_connected E w es t s u H); eauto).
  destruct (find E u (s_tab E s)) as [c|] eqn:Fc; [clear F|congruence].
  cbn [listen step]. unfold bindp at 1 2, remove_connection. unfold bindp at 1, look. rewrite Fc.
  unfold bindp at 1. unfold bindp at 1, get_tab. unfold bindp at 1, world.
  cbn [s_w s_tab].
  destruct (w_disconnected E (s_w E s) (ident_of E u c) (idents E (drop E u (s_tab E s)))) as [w' bs].
  unfold bindp at 1, emit. unfold bindp.
  match goal with |- context [emit_event E (e_disconnected E) bs ?x] =>
    pose proof (calm_emit_event E (e_disconnected E) bs x) as C; unfold wp in C;
    destruct (emit_event E (e_disconnected E) bs x) as [t1 [s1 [a|e|]]] end;
  cbn [fst snd ret app] in *; destruct C as (Hq & _); eexists _, _, _; (split; [rewrite ?app_nil_r; reflexivity|]);
  intros o v Ho; apply quiet_mentions; eapply forallb_forall in Hq; eauto;
  rewrite ?app_nil_r in Ho; auto.
Qed.
Print Assumptions C34_disconnect_runs.

(** A second connection with a uuid in use replaces nothing: the listener ends with
    an error, having done nothing (see C47). *)
Theorem C34_duplicate_replaces_nothing E w es t s u l :
  runs_to E w es t s -> connected E u t l ->
  listen E (es ++ [VConnected u]) (start E w) = (t, (s, PStop (EAddConsumer u))).
Proof.
  intros H Hn. rewrite (runs_then _ _ _ _ _ _ H).
  assert (F : find E u (s_tab E s) <> None) by (apply (find_connected E w es t s u H); eauto).
  destruct (find E u (s_tab E s)) as [c|] eqn:Fc; [clear F|congruence].
  cbn [listen step]. unfold bindp at 1 2 3 4, add_connection. unfold bindp, look. rewrite Fc. cbn.
  rewrite app_nil_r. reflexivity.
Qed.
Print Assumptions C34_duplicate_replaces_nothing.

Example C34_example :
  flat_map (fun o => match o with OConnected _ u _ _ => [(u, true)] | ODisconnected _ u _ _ => [(u, false)] | _ => [] end)
   (run plain_demo tt (hello 4 ++ [VDisconnected 9; VConnected 9; VDisconnected 4; VDisconnected 4] ++ hello 4 ++ [VConnected 4])) =
  [(4, true); (9, true); (4, false); (4, true)].
Proof. vm_compute. reflexivity. Qed.

(** ** C35 *)

(** In every state of the producer the filters return exactly the described
    connected consumers, each once. *)
Theorem C35_filters E w es t s : runs_to E w es t s ->
  let on v := exists l, connected E v t l in
  let tab := s_tab E s in
  (NoDup (f_all E tab) /\ forall v, In v (f_all E tab) <-> on v) /\
  (forall u, NoDup (f_except E tab u) /\ forall v, In v (f_except E tab u) <-> on v /\ v <> u) /\
  (forall us, NoDup (f_exclude E tab us) /\ forall v, In v (f_exclude E tab us) <-> on v /\ ~ In v us) /\
  (forall cb, NoDup (f_filter E tab cb) /\
     forall v, In v (f_filter E tab cb) <->
       on v /\ exists i, In i (idents E tab) /\ i_uuid i = v /\ cb i = true).
Proof.
  intros H on tab.
  assert (Nd : NoDup (map fst tab)) by (apply listen_inv in H; apply H).
  assert (Hon : forall v, In v (map fst tab) <-> on v).
  { intros v. rewrite <- find_In. apply (find_connected E w es t s v H). }
  split; [|split; [|split]].
  - split; [exact Nd|exact Hon].
  - intros u. unfold f_except. split; [apply NoDup_filter; exact Nd|]. intros v.
    rewrite filter_In, Hon, negb_true_iff, N.eqb_neq. tauto.
  - intros us. unfold f_exclude. split; [apply NoDup_filter; exact Nd|]. intros v.
    rewrite filter_In, Hon, negb_true_iff.
    assert (X : existsb (fun x => x =? v) us = false <-> ~ In v us).
    { split.
      - intros X Hin. assert (existsb (fun x => x =? v) us = true); [|congruence].
        apply existsb_exists. exists v. split; [auto|apply N.eqb_refl].
      - intros X. destruct (existsb (fun x => x =? v) us) eqn:Ex; auto. apply existsb_exists in Ex.
        destruct Ex as (x & Hx & He). apply N.eqb_eq in He. subst x. destruct (X Hx). }
    rewrite X. tauto.
  - intros cb. unfold f_filter. split.
    + assert (Ni : NoDup (map i_uuid (idents E tab))) by (rewrite idents_uuid; exact Nd).
      clear -Ni. induction (idents E tab) as [|i l IH]; cbn; [constructor|].
      inversion Ni as [|? ? Hn Hl]; subst. destruct (cb i); cbn; [|auto]. constructor; auto.
      rewrite in_map_iff. intros (j & Hj & Hin). apply filter_In in Hin. apply Hn. rewrite <- Hj.
      apply in_map. apply Hin.
    + intros v. rewrite in_map_iff. split.
      * intros (i & Hi & Hin). apply filter_In in Hin. destruct Hin as [Hin Hcb]. split; [|exists i; auto].
        apply Hon. rewrite <- (idents_uuid E tab), <- Hi. apply in_map. exact Hin.
      * intros (_ & i & Hin & Hi & Hcb). exists i. split; auto. apply filter_In. auto.
Qed.
Print Assumptions C35_filters.

(** What a user's handler is shown: all connected consumers, each once; while a
    consumer connects or disconnects, all others. *)
Theorem C35_handlers_see_connected E w es pre o post :
  run E w es = pre ++ o :: post ->
  match o with
  | OCall _ _ _ _ ids _ | OBeacon _ _ _ _ ids _ | OEvent _ _ ids _ =>
    NoDup (map i_uuid ids) /\ forall v, In v (map i_uuid ids) <-> exists l, connected E v pre l
  | OConnected _ u ids _ | ODisconnected _ u ids _ =>
    NoDup (map i_uuid ids) /\
    forall v, In v (map i_uuid ids) <-> v <> u /\ exists l, connected E v pre l
  | _ => True
  end.
Proof.
  intros H. apply run_at in H. destruct o; auto; cbn [ok_at] in H.
  - destruct H as (H0 & Hn & Hi). split; [exact Hn|]. intros v. rewrite Hi, <- is_connected_since.
    split; [|tauto]. intros Hc. split; [|exact Hc]. intros ->. apply is_connected_since in Hc. congruence.
  - destruct H as (_ & Hn & Hi). split; [exact Hn|]. intros v. rewrite Hi, <- is_connected_since. tauto.
  - destruct H as (_ & Hn & Hi). split; [exact Hn|]. intros v. rewrite Hi, <- is_connected_since. tauto.
  - destruct H as (_ & Hn & Hi). split; [exact Hn|]. intros v. rewrite Hi, <- is_connected_since. tauto.
  - destruct H as (Hn & Hi). split; [exact Hn|]. intros v. rewrite Hi, <- is_connected_since. tauto.
Qed.
Print Assumptions C35_handlers_see_connected.

Example C35_example :
  let es := hello 4 ++ hello 9 ++ hello 5 ++ [VDisconnected 9] in
  let tab := s_tab _ (final plain_demo tt es) in
  runs_to plain_demo tt es (run plain_demo tt es) (final plain_demo tt es) /\
  f_all _ tab = [5; 4] /\ f_except _ tab 4 = [5] /\ f_exclude _ tab [9; 5] = [4] /\
  f_filter _ tab (fun i => i_uuid i =? 4) = [4].
Proof.
  cbv zeta. split; [apply runs_final; vm_compute; reflexivity|].
  split; [vm_compute; reflexivity|]. split; [vm_compute; reflexivity|]. split; vm_compute; reflexivity.
Qed.

(** ** C27 *)

(** The claim as stated is false: for a request with a single action the generated
    module drops the broadcasts, although the action declares a mandatory one and
    the handler returned it. *)
Theorem C27_refuted : exists E w es pre u r m ids x us y post,
  run E w es = pre ++ OCall E u r m ids (HAct 0 x [Some (us, y)]) :: post /\
  nth_error (e_requests E r) 0 = Some [false] /\ In u us /\
  In (OSend E u 12 (PAnswer x) true) post /\
  forall v seq ok, ~ In (OSend E v seq (PBroadcast y) ok) post.
Proof.
  exists plain_demo, tt, (hello 4 ++ [VReceived 4 (msg 11 12 [])]).
  exists [OConnected plain_demo 4 [] (Some [Some ([], 100)]); ODeferred plain_demo;
     OSend plain_demo 4 0 PConfirm true;
     OHandle plain_demo 4 (get_header self_msg) (1, [x61]); OSend plain_demo 4 0 (PSelf 4) true;
     OHandle plain_demo 4 (get_header hash_msg) (2, [x0a; x0b]); OSend plain_demo 4 1 (PHash true) true;
     OHandle plain_demo 4 (get_header (msg 11 12 [])) (11, [])].
  exists 4, 1%nat, (11, []), [mkIdent 4 (Some [Some [x61]]) None false], 7, [4], 8.
  exists [OSend plain_demo 4 12 (PAnswer 7) true; ODeferred plain_demo].
  split; [apply run_is; vm_compute; reflexivity|]. split; [reflexivity|]. split; [left; reflexivity|].
  split; [left; reflexivity|]. intros v seq ok [H|[H|[]]]; discriminate.
Qed.
Print Assumptions C27_refuted.

(** This is so for every request with a single action. *)
Theorem C27_single_action_broadcasts_lost E w es pre u r m ids res post :
  run E w es = pre ++ OCall E u r m ids res :: post ->
  (length (e_requests E r) <= 1)%nat ->
  exists o rest, (post = o :: rest \/ post = o :: ODeferred E :: rest) /\
    ((exists seq ok, o = OSend E u seq (PAnswer (answer_of E res)) ok) \/
     (exists seq, o = OUnpacked E (Some u) seq (PAnswer (answer_of E res)))) /\
    (forall seq, o = OSend E u seq (PAnswer (answer_of E res)) true -> post = o :: ODeferred E :: rest).
Proof.
  intros H Hl. apply run_after in H. destruct H as (seq & H).
  assert (Hb : bcasts_of E r res = []).
  { destruct res; [reflexivity|]. cbn [bcasts_of]. destruct (Nat.ltb_spec 1 (length (e_requests E r))); [lia|reflexivity]. }
  rewrite Hb in H.
  destruct H as [(y & rest & [] & _)|[(rest & ->)|[(rest & ->)|(os & rest & -> & Hs)]]].
  - eexists _, rest. split; [left; reflexivity|]. split; [right; eauto|]. discriminate.
  - eexists _, rest. split; [left; reflexivity|]. split; [left; eauto|]. intros sq Hq. discriminate.
  - destruct os; [|discriminate]. eexists _, rest. split; [right; reflexivity|]. split; [left; eauto|].
    reflexivity.
Qed.
Print Assumptions C27_single_action_broadcasts_lost.

(** What holds: for a request with several actions, when the response went out,
    every broadcast the handler returned for a declaration of the chosen action is
    sent to each of its receivers, before anything else is processed.  Missing from
    C27: requests with one action. *)
Theorem C27_broadcasts_sent_partial E w es pre u r m ids n x bs seq rest i opt us y v :
  run E w es = pre ++ OCall E u r m ids (HAct n x bs) :: OSend E u seq (PAnswer x) true :: rest ->
  (1 < length (e_requests E r))%nat ->
  nth_error (nth n (e_requests E r) []) i = Some opt ->
  nth_error bs i = Some (Some (us, y)) -> In v us ->
  exists a ok b, rest = a ++ OSend E v 0 (PBroadcast y) ok :: b /\
    forall o, In o a -> exists v' y' ok', o = OSend E v' 0 (PBroadcast y') ok'.
Proof.
  intros H Hl Hd Hb Hv. apply run_after in H. destruct H as (sq & H).
  assert (Hin : In (us, y) (declared E (nth n (e_requests E r) []) bs)).
  { clear -Hd Hb. revert i bs Hd Hb. generalize (nth n (e_requests E r) []) as ds.
    induction ds as [|d ds IH]; intros i bs Hd Hb; [destruct i; discriminate|].
    destruct i as [|i]; destruct bs as [|b bs]; try discriminate; cbn in Hd, Hb.
    - injection Hb as ->. left. reflexivity.
    - cbn. destruct b as [b|]; [right|]; eapply IH; eauto. }
  cbn [bcasts_of answer_of] in H. apply Nat.ltb_lt in Hl. rewrite Hl in H.
  destruct H as [(y' & r' & _ & H)|[(r' & H)|[(r' & H)|(os & r' & H & Hs)]]]; try discriminate.
  injection H as _ ->. remember (declared E (nth n (e_requests E r) []) bs) as l eqn:El. clear El Hd Hb Hl.
  assert (Hsend : In (Some (v, 0, PBroadcast y)) (sends E l)).
  { unfold sends. apply in_flat_map. exists (us, y). split; auto. cbn.
    apply in_map_iff. exists v. auto. }
  assert (Hall : forall o, In o os -> exists v' y' ok', o = OSend E v' 0 (PBroadcast y') ok').
  { intros o Ho. apply (in_map (strip E)) in Ho. rewrite Hs in Ho. unfold sends in Ho.
    apply in_flat_map in Ho. destruct Ho as ([us' y'] & _ & Ho). apply in_map_iff in Ho.
    destruct Ho as (v' & Ho & _). cbn in Ho. destruct o; cbn in Ho; try discriminate.
    injection Ho as <- <- <-. eauto. }
  rewrite <- Hs in Hsend. apply in_map_iff in Hsend. destruct Hsend as (o & Ho & Hin').
  apply in_split in Hin'. destruct Hin' as (a & b & ->).
  destruct o; cbn in Ho; try discriminate. injection Ho as -> -> ->.
  exists a, ok, (b ++ ODeferred E :: r'). split; [rewrite <- app_assoc; reflexivity|].
  intros o Ho. apply Hall. apply in_or_app. auto.
Qed.
Print Assumptions C27_broadcasts_sent_partial.

(** Nothing else is broadcast: between the response and the end of the request
    exactly the declared broadcasts the handler returned are sent, in order. *)
Theorem C27_only_declared_broadcasts E w es pre u r m ids n x bs seq rest :
  run E w es = pre ++ OCall E u r m ids (HAct n x bs) :: OSend E u seq (PAnswer x) true :: rest ->
  (1 < length (e_requests E r))%nat ->
  exists os r', rest = os ++ ODeferred E :: r' /\
    map (strip E) os =
    flat_map (fun b => map (fun v => Some (v, 0, PBroadcast (snd b))) (fst b))
      (declared E (nth n (e_requests E r) []) bs).
Proof.
  intros H Hl. apply run_after in H. destruct H as (sq & H).
  cbn [bcasts_of answer_of] in H. apply Nat.ltb_lt in Hl. rewrite Hl in H.
  destruct H as [(y' & r' & _ & H)|[(r' & H)|[(r' & H)|(os & r' & H & Hs)]]]; try discriminate.
  injection H as _ ->. exists os, r'. split; [reflexivity|exact Hs].
Qed.
Print Assumptions C27_only_declared_broadcasts.

(** two actions, two consumers; the error and the action without its optional
    broadcast broadcast nothing *)
Example C27_example :
  flat_map (fun o => match o with OSend _ u seq (PAnswer x) _ => [(u, seq, x, false)]
                             | OSend _ u seq (PBroadcast x) _ => [(u, seq, x, true)] | _ => [] end)
   (run plain_demo tt (hello 4 ++ hello 9 ++ [VReceived 9 (msg 10 12 [] ++ msg 10 13 [x01] ++ msg 10 14 [x02])])) =
  [(4, 0, 100, true); (9, 12, 7, false); (9, 0, 8, true); (4, 0, 8, true); (9, 13, 99, false); (9, 14, 7, false)].
Proof. vm_compute. reflexivity. Qed.

(** ** C47 *)

Lemma last_is is cs bad dok (t : list (out (demo is cs bad dok))) o d :
  d <> o -> (if out_dec is cs bad dok (last t d) o then true else false) = true -> exists t', t = t' ++ [o].
Proof.
  intros Hd H. destruct (out_dec is cs bad dok (last t d) o) as [<-|]; [|discriminate].
  exists (removelast t). apply app_removelast_last. intros ->. cbn in Hd. congruence.
Qed.

(** "A failure that concerns one consumer does not end the producer" is false: the
    confirmation of consumer 9 cannot be sent, and consumer 4, which is in order, is
    not served any more. *)
Theorem C47_refuted : exists E w es1 es2 u v,
  u <> v /\
  (exists t s, runs_to E w es1 t s) /\
  (exists t s, listen E (es1 ++ es2) (start E w) = (t, (s, PStop EServer)) /\
     exists t', t = t' ++ [OSend E u 0 PConfirm false]) /\
  (exists r m ids res, In (OCall E v r m ids res) (run E w (es1 ++ [VReceived v (msg 10 12 [])]))) /\
  (forall r m ids res, ~ In (OCall E v r m ids res) (run E w (es1 ++ es2 ++ [VReceived v (msg 10 12 [])]))).
Proof.
  exists (demo IIgnore SEmit [9] true), tt, (hello 4), [VConnected 9; VConfirm], 9, 4.
  split; [discriminate|]. split; [eexists _, _; apply runs_final; vm_compute; reflexivity|]. split; [|split].
  - eexists _, _. split; [apply stops_final; vm_compute; reflexivity|].
    apply last_is with (d := ODeferred _); [discriminate|]. vm_compute. reflexivity.
  - apply some_call. vm_compute. reflexivity.
  - intros r m ids res. apply (none_in (is_call 4)); [|reflexivity]. vm_compute. reflexivity.
Qed.
Print Assumptions C47_refuted.

(** So does a server that fails to disconnect a consumer with wrong hashes. *)
Theorem C47_refuted_by_disconnect : exists E w es1 data u v,
  u <> v /\ (exists t s l, runs_to E w es1 t s /\ connected E v t l) /\
  exists t s, listen E (es1 ++ [VReceived u data]) (start E w) = (t, (s, PStop EServer)) /\
    exists t', t = t' ++ [ODisc E u false].
Proof.
  exists (demo IIgnore SEmit [] false), tt, (hello 4 ++ [VConnected 9; VConfirm]), bad_hash_msg, 9, 4.
  split; [discriminate|]. split.
  - set (D := demo IIgnore SEmit [] false). set (es := hello 4 ++ [VConnected 9; VConfirm]).
    destruct (since D 4 (run D tt es)) as [l|] eqn:S.
    2:{ assert (H : match since D 4 (run D tt es) with Some _ => true | None => false end = true)
          by (vm_compute; reflexivity). rewrite S in H. discriminate. }
    exists (run D tt es), (final D tt es), l. split; [apply runs_final; vm_compute; reflexivity|].
    apply connected_since. exact S.
  - eexists _, _. split; [apply stops_final; vm_compute; reflexivity|].
    apply last_is with (d := ODeferred _); [discriminate|]. vm_compute. reflexivity.
Qed.
Print Assumptions C47_refuted_by_disconnect.

(** What holds: the complete list of what ends the listener with an error.  The
    server refuses to disconnect, the confirmation cannot be sent or packed, the
    user's ready or error handler fails, or a uuid in use connects again.  So no
    malformed message, refused hash, failing request, beacon or event handler,
    failing response or broadcast, or unknown uuid ends it.  It panics only while
    parsing received bytes. *)
Theorem C47_reasons_to_end_partial E e s t s' r : step E e s = (t, (s', r)) ->
  match r with
  | PGo _ => True
  | PStop EServer =>
    exists t0 u, t = t0 ++ [ODisc E u false] \/ t = t0 ++ [OSend E u 0 PConfirm false]
  | PStop (EProtocol u) => exists t0, t = t0 ++ [OUnpacked E (Some u) 0 PConfirm]
  | PStop EEmitter => exists t0, t = t0 ++ [OReady E] \/ exists x u, t = t0 ++ [OError E x u]
  | PStop (EAddConsumer u) => e = VConnected u /\ find E u (s_tab E s) <> None /\ t = [] /\ s' = s
  | PStop _ => False
  | PPanic => exists u data c, e = VReceived u data /\ find E u (s_tab E s) = Some c /\
      fst (chunk (e_get E) (e_sig E) (c_buf E c) data) = CPanic
  end.
Proof.
  intros H. apply step_ends in H. destruct r as [b|x|]; auto.
  destruct H as [H|(u & c & -> & -> & F & -> & ->)].
  - destruct x; cbn in H; tauto.
  - split; [reflexivity|]. split; [congruence|]. auto.
Qed.
Print Assumptions C47_reasons_to_end_partial.

(** garbage, an unknown uuid and a failing answer do not end it *)
Example C47_example :
  let es := hello 4 ++ [VReceived 4 (repeat x00 40); VReceived 77 [x01]; VKey 77 [] true; VDisconnected 77] in
  runs_to plain_demo tt es (run plain_demo tt es) (final plain_demo tt es).
Proof. apply runs_final. vm_compute. reflexivity. Qed.

(** ** C48 *)

Lemma merge_length opt : forall old new, length old = length opt -> length new = length opt ->
  length (merge opt old new) = length opt.
Proof.
  induction opt as [|o opt IH]; intros [|a old] [|b new] H1 H2; cbn in *; try discriminate; auto.
Qed.

Lemma merge_nth opt : forall old new i o a b,
  nth_error opt i = Some o -> nth_error old i = Some a -> nth_error new i = Some b ->
  nth_error (merge opt old new) i = Some (if o then match b with Some _ => b | None => a end else b).
Proof.
  induction opt as [|o' opt IH]; intros [|a' old] [|b' new] [|i] o a b; cbn; try discriminate; auto.
  intros [= <-] [= <-] [= <-]. reflexivity.
Qed.

(** The application updates a key of a connected consumer.  Without [overwrite]
    the fields it gives replace the old ones and optional fields it leaves out keep
    their values; with [overwrite] the new key replaces the old one; the rest of
    the consumer's record stays as it was. *)
Theorem C48_key_updates E u k ov s c t s' r :
  find E u (s_tab E s) = Some c -> step E (VKey u k ov) s = (t, (s', r)) ->
  r = PGo true /\ exists c' k', find E u (s_tab E s') = Some c' /\
    c' = mkConsumer E (c_buf E c) (Some k') (c_assigned E c) (c_disc E c) (c_hash E c) (c_conf E c) /\
    match c_key E c with
    | None => k' = k
    | Some old =>
      if ov then k' = k
      else length old = length (e_self_opt E) -> length k = length (e_self_opt E) ->
        length k' = length (e_self_opt E) /\
        forall i o a b, nth_error (e_self_opt E) i = Some o -> nth_error old i = Some a -> nth_error k i = Some b ->
          nth_error k' i = Some (if o then match b with Some _ => b | None => a end else b)
    end.
Proof.
  intros F. cbn [step]. unfold bindp at 1, look. rewrite F. unfold bindp at 1, upd. rewrite F. cbn.
  intros [= <- <- <-]. split; [reflexivity|]. eexists _, _. cbn [s_tab].
  split; [eapply find_put_same; exact F|]. split; [reflexivity|].
  destruct (c_key E c) as [old|]; [|reflexivity]. destruct ov; [reflexivity|].
  intros H1 H2. split; [apply merge_length; auto|]. intros i o a b. apply merge_nth.
Qed.
Print Assumptions C48_key_updates.

Theorem C48_assigned_updates E u k ov s c t s' r :
  find E u (s_tab E s) = Some c -> step E (VAssign u k ov) s = (t, (s', r)) ->
  r = PGo true /\ exists c' k', find E u (s_tab E s') = Some c' /\
    c' = mkConsumer E (c_buf E c) (c_key E c) (Some k') (c_disc E c) (c_hash E c) (c_conf E c) /\
    match c_assigned E c with
    | None => k' = k
    | Some old =>
      if ov then k' = k
      else length old = length (e_assigned_opt E) -> length k = length (e_assigned_opt E) ->
        length k' = length (e_assigned_opt E) /\
        forall i o a b, nth_error (e_assigned_opt E) i = Some o -> nth_error old i = Some a -> nth_error k i = Some b ->
          nth_error k' i = Some (if o then match b with Some _ => b | None => a end else b)
    end.
Proof.
  intros F. cbn [step]. unfold bindp at 1, look. rewrite F. unfold bindp at 1, upd. rewrite F. cbn.
  intros [= <- <- <-]. split; [reflexivity|]. eexists _, _. cbn [s_tab].
  split; [eapply find_put_same; exact F|]. split; [reflexivity|].
  destruct (c_assigned E c) as [old|]; [|reflexivity]. destruct ov; [reflexivity|].
  intros H1 H2. split; [apply merge_length; auto|]. intros i o a b. apply merge_nth.
Qed.
Print Assumptions C48_assigned_updates.

Example C48_example :
  let es := hello 4 ++ [VAssign 4 [Some [x01]; Some [x02]] true; VAssign 4 [None; Some [x03]] false] in
  option_map (c_assigned _) (find _ 4 (s_tab _ (final plain_demo tt es))) = Some (Some [Some [x01]; Some [x03]]).
Proof. vm_compute. reflexivity. Qed.
