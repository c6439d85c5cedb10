(** What is reported when a connection ends (C77), and the uuid calls are sent with
    after 'connected' has been reported (C76). *)
From Coq Require Import List NArith Bool Lia Arith.
From Coq Require Import Strings.Byte.
From Verif Require Import Bytes WireModel FrameModel FrameProofs.
From Verif Require Import ConsumerModel ConsumerProofs ConsumerInv ConsumerTrace ConsumerTrace2 ConsumerSpec ConsumerNamed.
From Verif Require Import PropConsumer.
Import ListNotations.

Section Props.
Variable E : cenv.
Notation out := (out E).
Notation exec := (exec E).

(** * C76: the uuid *)

(** A message of a call that was made after 'connected' had been reported is packed
    with a uuid that a complete handshake gave, if the transport reports no
    disconnect in between. *)
Theorem C76_later_calls_have_uuid_partial (ls : list (label E)) s (t : list out) : runs E ls (start E) = Some (s, t) ->
  ~ In (LEvent E InDisconnected) ls ->
  forall t1 a k t2, t = t1 ++ XCall E a k :: t2 -> In (XEmit E (EConnected E)) t1 ->
  forall u1 n x u ok u2, t2 = u1 ++ XSend E a n (PUser E x u) ok :: u2 ->
  exists v b w, u = Some v /\ handshake E b w (t1 ++ XCall E a k :: u1) /\ x_uuid E w = Some v.
Proof.
  intros R N t1 a k t2 Q C u1 n x u ok u2 Q2.
  pose proof (runs_met E ls [] _ _ _ R N (start_inv E) (start_met E)) as M. cbn in M.
  assert (L : ConsumerNamed.late E a t) by (exists t1, k, t2; auto).
  assert (QS : t = (t1 ++ XCall E a k :: u1) ++ XSend E a n (PUser E x u) ok :: u2).
  { rewrite Q, Q2, <- app_assoc. reflexivity. }
  assert (J : In (XSend E a n (PUser E x u) ok) t) by (rewrite QS; apply in_elt).
  pose proof (m_sent _ _ _ M _ _ _ _ _ L J) as U. destruct u as [v|]; [|destruct (U eq_refl)].
  destruct (C40_uuid_from_handshake E t (ex_intro _ ls (ex_intro _ s R)) _ _ _ _ _ _ _ QS) as (b&w&H&W).
  exists v, b, w. auto.
Qed.

(** * C77: what is reported *)

(** The end of a connection is reported (to the event handler, and by the end of
    [connect]) after each of its three tasks has ended, once; it is reported without
    an error exactly if none of the three ended with one, and otherwise with one of
    theirs: the event handler is given the transport's if there is one, [connect]
    returns it only if the two other tasks have none. *)
Theorem C77_reported_partial (t : list out) : exec t -> forall t1 o r t2, t = t1 ++ o :: t2 ->
  (o = XEmit E (EShutdown E r) \/ exists b, o = XOver E b r) -> o <> XOver E false (Some XPanic) ->
  exists ra rm rc, (forall x, In (XApiEnd E x) t1 <-> x = ra) /\ (forall x, In (XMsgEnd E x) t1 <-> x = rm) /\
    (forall x, In (XCliEnd E x) t1 <-> x = rc) /\
    (r = None <-> ra = None /\ rm = None /\ rc = None) /\
    (forall e, r = Some e -> ra = Some e \/ rm = Some e \/ rc = Some e) /\
    (forall e, o = XEmit E (EShutdown E r) -> rc = Some e -> r = Some e) /\
    (forall e b, o = XOver E b r -> rm = None -> ra = None -> rc = Some e -> r = Some e) /\
    (forall e b, o = XOver E b r -> rm = Some e \/ rm = None /\ ra = Some e -> r = Some e).
Proof.
  intros (ls&s&R) t1 o r t2 Q O P.
  assert (Z : ConsumerNamed.reports E o) by (destruct O as [->|[b ->]]; exact Logic.I).
  destruct (report_at E ls s t R t1 o t2 Q Z) as [H|[H|(ra&rm&rc&A&M&C&D)]]; [contradiction| |].
  - exfalso. destruct (in_split _ _ H) as (v1&v2&V).
    assert (QV : t = v1 ++ XOver E false (Some XPanic) :: (v2 ++ o :: t2)) by (rewrite Q, V, <- app_assoc; reflexivity).
    destruct (C53_over E t (ex_intro _ ls (ex_intro _ s R)) _ _ _ _ QV) as (_&N&K).
    specialize (K o (in_elt _ _ _)). destruct O as [->|[b ->]].
    + destruct K as [(?&?&K)|[K|(?&K)]]; [discriminate K|discriminate K|exact K].
    + destruct K as [(?&?&K)|[K|(?&K)]]; [discriminate K|discriminate K|exact K].
  - exists ra, rm, rc. split; [exact A|]. split; [exact M|]. split; [exact C|].
    destruct O as [->|[b ->]]; (destruct D as [[b' D]|D]; [|]); try discriminate D; injection D; intros; subst.
    all: destruct ra, rm, rc; cbn; repeat split; intros; try discriminate; try congruence; auto.
    all: repeat match goal with H : _ /\ _ |- _ => destruct H | H : _ \/ _ |- _ => destruct H end; try discriminate; auto.
Qed.
End Props.

Open Scope N_scope.

(** * Examples and refutations *)

Example C76_later_calls_have_uuid_example : exists s t1 t2 u1 u2,
  runs demo session (start demo) = Some (s, t1 ++ XCall demo 2 (req 200) :: t2) /\
  ~ In (LEvent demo InDisconnected) session /\ In (XEmit demo (EConnected demo)) t1 /\
  t2 = u1 ++ XSend demo 2 12 (PUser demo 200 (Some 7)) true :: u2.
Proof.
  exists (state session), (firstn 14 (trace session)), (skipn 15 (trace session)), (firstn 1 (skipn 15 (trace session))), (skipn 17 (trace session)).
  split; [|split; [|split]].
  - replace (firstn 14 (trace session) ++ XCall demo 2 (req 200) :: skipn 15 (trace session)) with (trace session)
      by (apply same; vm_compute; reflexivity).
    apply possible_runs. vm_compute. reflexivity.
  - intros J. assert (K : existsb (fun l : label demo => match l with LEvent _ InDisconnected => true | _ => false end) session = true)
      by (apply existsb_exists; eexists; split; [exact J|reflexivity]).
    vm_compute in K. discriminate K.
  - here.
  - apply same. vm_compute. reflexivity.
Qed.

(** After the transport has reported a disconnect, the uuid is forgotten: a call made
    then is sent all the same, without one, although 'connected' was reported and no
    'disconnected' event was. *)
Definition dropped_line : list (label demo) := shake 0 ++ [LEvent demo InDisconnected] ++ send 1 (req 100).
Theorem C76_uuid_lost_refuted : exists (t t1 t2 : list (out demo)), exec demo t /\
  t = t1 ++ XCall demo 1 (req 100) :: t2 /\ In (XEmit demo (EConnected demo)) t1 /\
  In (XSend demo 1 11 (PUser demo 100 None) true) t2 /\ ~ In (XEmit demo (EDisconnected demo)) t.
Proof.
  exists (trace dropped_line), (firstn 11 (trace dropped_line)), (skipn 12 (trace dropped_line)).
  split; [by_run|]. split; [apply same; vm_compute; reflexivity|]. split; [here|]. split; [here|].
  apply (none_such (fun o => match o with XEmit _ (EDisconnected _) => true | _ => false end)); vm_compute; reflexivity.
Qed.

(** The handshake is refused and the transport fails as well: the event handler is
    told of the transport's error, [connect] returns the refusal. *)
Definition two_errors : list (label demo) :=
  confirm ++ self 0 ++ receive 2 0 [x07] ++ self 0 ++ receive 3 1 [x01] ++
  [LAct demo 0 true; LAuth demo; LClient demo false; LApiCancel demo; LShutCancel demo; LDone demo;
   LEmit demo; LHandled demo; LEmit demo; LHandled demo; LEmit demo; LHandled demo; LEmit demo; LHandled demo; LOver demo].
Theorem C77_one_error_refuted : exists t : list (out demo), exec demo t /\
  In (XEmit demo (EShutdown demo (Some XClient))) t /\ In (XOver demo false (Some XHashCheck)) t.
Proof. exists (trace two_errors). split; [by_run|]. split; here. Qed.

Example C77_reported_example : exec demo (trace two_errors) /\
  (exists t1 t2, trace two_errors = t1 ++ XEmit demo (EShutdown demo (Some XClient)) :: t2) /\
  (exists t1, trace two_errors = t1 ++ [XOver demo false (Some XHashCheck)]).
Proof.
  split; [by_run|]. split.
  - exact (in_split _ _ (in_is (XEmit demo (EShutdown demo (Some XClient))) (trace two_errors) eq_refl)).
  - exists (removelast (trace two_errors)). apply same. vm_compute. reflexivity.
Qed.

Print Assumptions C76_later_calls_have_uuid_partial.
Print Assumptions C76_uuid_lost_refuted.
Print Assumptions C77_reported_partial.
Print Assumptions C77_one_error_refuted.
