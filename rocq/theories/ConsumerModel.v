(** Model of a generated Rust consumer (client side):
    cli/src/workflow/render/consumer/rust/render_consumer.rs (template [MODULE]
    l.11-715), render_controller.rs (templates [BEACON] l.37-63, [REQUEST]
    l.64-88 and get_requests l.170-216) and static/implementation/consumer/api.rs.

    One connection (one call of [listen], l.171-373) is a transition system: its
    tasks run concurrently, so every piece of code between two [await]s is one
    transition, and a transition names the task that runs ([label]).  Whatever the
    generated code cannot influence (which task runs next, what the transport
    delivers, whether a message can be packed or sent, when a timeout fires, when
    the application makes or abandons a call) is part of the label, so that the
    executions are all lists of labels.

    A [oneshot] channel is identified by the activity holding its receiver: it can
    be filled only while that activity is waiting for it, and it is closed when no
    task holds its sender any more ([has_sender]). *)
From Coq Require Import List NArith Bool.
From Coq Require Import Strings.Byte.
From Verif Require Import Bytes WireModel FrameModel.
Import ListNotations.
Open Scope N_scope.

(** static/implementation/consumer/error.rs [ConsumerError], texts left out;
    [XPanic] stands for a panic of the connection's task. *)
Inductive cerr :=
| XBuffer | XUnknown | XUnexpected | XProtocol | XBroadcast (t : bytes) | XHandshake
| XHashCheck | XPending | XApiChannel | XClientChannel | XGetting | XUuid
| XSequence (n : N) | XClient | XTimeout | XPanic.

(** The generated protocol, and the declarations of the workflow. *)
Record cenv := mkCenv {
  x_msg : Type;          (* protocol::AvailableMessages *)
  x_user : Type;         (* requests and beacons *)
  x_get : N -> bytes -> res x_msg err;           (* AvailableMessages::get_msg *)
  x_sig : N;
  x_confirm : x_msg -> bool;                     (* ConnectConfirmationBeacon *)
  x_self : x_msg -> option bytes;                (* SelfKeyResponse.uuid *)
  x_hash : x_msg -> option (option bytes);       (* HashResponse.error *)
  x_beacon : x_msg -> option (option bytes);     (* BeaconConfirmation.error *)
  x_answer : nat -> x_msg -> option nat;         (* alternatives of request r, first match *)
  x_broadcast : x_msg -> option nat;             (* declared broadcasts *)
  x_uuid : bytes -> option N                     (* Uuid::from_str *)
}.

Section Consumer.
Variable E : cenv.

Let M := x_msg E.
Let X := x_user E.

(** Activities: a call of the application (a request, a beacon or [shutdown]:
    render_controller.rs), or a spawned [auth] (render_consumer.rs l.629-715)
    before and after the answer to the self key (l.667, [t] is the uuid). *)
Inductive kind :=
| KReq (r : nat) (x : X) | KBeacon (b : nat) (x : X) | KShutdown
| KAuth0 | KAuth1 (t : bytes).

(** What is sent: the self key, the hashes (l.672-675), or the application's
    message packed with the known uuid. *)
Inductive payload := PSelf | PHash | PUser (x : X) (u : option N).

(** Where an activity stands: [W*] is waiting for the answer, [G*] has it in its
    oneshot channel but has not been resumed yet. *)
Inductive stage :=
| Init | WSeq | GSeq (n : N) | WUuid (n : N) | GUuid (n : N) (u : option N)
| WResp (n : N) | GResp (n : N) (m : M) | WStop | GStop.

(** What a call returns: the alternative and message of a request, the
    confirmation of a beacon or shutdown, or an error. *)
Inductive cres := ROk (i : nat) (m : M) | RDone | RErr (e : cerr).

(** l.55-61 [Emitter] *)
Inductive cevent :=
| EConnected | EDisconnected | EShutdown (e : option cerr) | EError (e : cerr)
| EBroadcast (b : nat) (m : M).

(** static/implementation/consumer/api.rs l.8-15 [Channel] ([Send] is never
    constructed) *)
Inductive cmd :=
| QRequest (n : N) (p : payload) (a : nat) | QAccept (n : N) (m : M)
| QUuid (a : nat) | QSeq (a : nat) | QShutdown (a : nat).

(** l.44-47 [Auth] *)
Inductive amsg := ASet (r : bytes + cerr) | AGet (a : nat).

(** client_messages_task l.493-627: waiting in [select!] (l.507-511), between two
    messages of the buffer (l.525), waiting for [api.accept] (l.548), ended. *)
Inductive mstate :=
| MIdle | MDrain | MWait (h : header) (m : M) (answer : option bool) | MEnd (r : option cerr).

(** the task of l.247-263: waiting, has got a request, has got none *)
Inductive shstate := ShWait | ShGot (a : nat) | ShNone.

(** The variables of one [listen].  Ended tasks keep their result. *)
Record st := mkSt {
  s_next : nat;                          (* next activity *)
  s_acts : list (nat * (kind * stage));
  s_api : option (option cerr);          (* client_api_task *)
  s_pend : list (N * nat);               (* pending, l.422 *)
  s_seq : N;                             (* sequence, l.423 *)
  s_q : list cmd;                        (* rx_client_api *)
  s_msg : mstate;                        (* client_messages_task *)
  s_buf : rbuf M;                        (* buffer, l.505 *)
  s_uuid : option N;                     (* uuid, l.506 *)
  s_qauth : list amsg;                   (* rx_auth *)
  s_cli : option (option cerr);          (* client.connect(), l.307-328 *)
  s_cancel : bool;                       (* the cancellation token *)
  s_qshut : list nat;                    (* rx_shutdown *)
  s_shut : shstate;
  s_emit : list cevent;                  (* rx_consumer_event *)
  s_hand : option (option nat);          (* a handler runs (and awaits a call) *)
  s_done : bool;                         (* the listener subtask has returned, l.355 *)
  s_over : bool                          (* join! has returned, l.356 *)
}.

Definition start : st :=
  mkSt 0 [] None [] 10 [] MIdle rbuf_new None [] None false [] ShWait [] None false false.

(** What happens, in order.  [XCall], [XSpawn] begin an activity, [XRet], [XAuthEnd],
    [XDrop] end it; [XSeqNo] is a number handed out (l.470-480); [XSend] a message
    given to the transport and its answer; [XIn] a message taken from the buffer
    (l.525); [XMatch] a message handed to a waiting request (l.446-447); [XEmit]
    an event put into the emitter's channel, [XEvent] the call of its handler
    (l.387-402; a handler may await calls of its own); [XCancel]: the application
    cancels the token. *)
Inductive out :=
| XCall (a : nat) (k : kind) | XSpawn (a : nat)
| XRet (a : nat) (r : cres) | XAuthEnd (a : nat) (r : bytes + cerr) | XDrop (a : nat)
| XSeqNo (a : nat) (n : N)
| XSend (a : nat) (n : N) (p : payload) (ok : bool)
| XIn (h : header) (m : M) | XMatch (a : nat) (n : N) (m : M)
| XEmit (e : cevent) | XEvent (e : cevent)
| XCancel | XApiEnd (r : option cerr) | XMsgEnd (r : option cerr) | XCliEnd (r : option cerr)
| XOver (shutdowned : bool) (r : option cerr).

(** Setters *)
Definition set_acts l s := mkSt (s_next s) l (s_api s) (s_pend s) (s_seq s) (s_q s) (s_msg s)
  (s_buf s) (s_uuid s) (s_qauth s) (s_cli s) (s_cancel s) (s_qshut s) (s_shut s) (s_emit s) (s_hand s) (s_done s) (s_over s).
Definition add_act k s := mkSt (S (s_next s)) ((s_next s, (k, Init)) :: s_acts s) (s_api s) (s_pend s)
  (s_seq s) (s_q s) (s_msg s) (s_buf s) (s_uuid s) (s_qauth s) (s_cli s) (s_cancel s) (s_qshut s)
  (s_shut s) (s_emit s) (s_hand s) (s_done s) (s_over s).
Definition set_api r pend seq q cancel s := mkSt (s_next s) (s_acts s) r pend seq q (s_msg s)
  (s_buf s) (s_uuid s) (s_qauth s) (s_cli s) cancel (s_qshut s) (s_shut s) (s_emit s) (s_hand s) (s_done s) (s_over s).
Definition set_msg m b u qa cancel s := mkSt (s_next s) (s_acts s) (s_api s) (s_pend s) (s_seq s) (s_q s)
  m b u qa (s_cli s) cancel (s_qshut s) (s_shut s) (s_emit s) (s_hand s) (s_done s) (s_over s).
Definition set_cli r cancel s := mkSt (s_next s) (s_acts s) (s_api s) (s_pend s) (s_seq s) (s_q s)
  (s_msg s) (s_buf s) (s_uuid s) (s_qauth s) r cancel (s_qshut s) (s_shut s) (s_emit s) (s_hand s) (s_done s) (s_over s).
Definition set_shut q sh cancel s := mkSt (s_next s) (s_acts s) (s_api s) (s_pend s) (s_seq s) (s_q s)
  (s_msg s) (s_buf s) (s_uuid s) (s_qauth s) (s_cli s) cancel q sh (s_emit s) (s_hand s) (s_done s) (s_over s).
Definition set_emit l s := mkSt (s_next s) (s_acts s) (s_api s) (s_pend s) (s_seq s) (s_q s)
  (s_msg s) (s_buf s) (s_uuid s) (s_qauth s) (s_cli s) (s_cancel s) (s_qshut s) (s_shut s) l (s_hand s) (s_done s) (s_over s).
Definition set_over s := mkSt (s_next s) (s_acts s) (s_api s) (s_pend s) (s_seq s) (s_q s)
  (s_msg s) (s_buf s) (s_uuid s) (s_qauth s) (s_cli s) (s_cancel s) (s_qshut s) (s_shut s) [] None true true.
Definition set_done s := mkSt (s_next s) (s_acts s) (s_api s) (s_pend s) (s_seq s) (s_q s)
  (s_msg s) (s_buf s) (s_uuid s) (s_qauth s) (s_cli s) (s_cancel s) (s_qshut s) (s_shut s) (s_emit s) (s_hand s) true (s_over s).
Definition set_hand h s := mkSt (s_next s) (s_acts s) (s_api s) (s_pend s) (s_seq s) (s_q s)
  (s_msg s) (s_buf s) (s_uuid s) (s_qauth s) (s_cli s) (s_cancel s) (s_qshut s) (s_shut s) (s_emit s) h (s_done s) (s_over s).

Definition push_q c s := set_api (s_api s) (s_pend s) (s_seq s) (s_q s ++ [c]) (s_cancel s) s.
Definition set_mstate m s := set_msg m (s_buf s) (s_uuid s) (s_qauth s) (s_cancel s) s.
Definition set_qauth l s := set_msg (s_msg s) (s_buf s) (s_uuid s) l (s_cancel s) s.

Fixpoint act (a : nat) (l : list (nat * (kind * stage))) : option (kind * stage) :=
  match l with
  | [] => None
  | (b, x) :: l => if Nat.eqb a b then Some x else act a l
  end.
Fixpoint put_act (a : nat) (x : kind * stage) (l : list (nat * (kind * stage))) :=
  match l with
  | [] => []
  | (b, y) :: l => if Nat.eqb a b then (b, x) :: l else (b, y) :: put_act a x l
  end.
Fixpoint del_act (a : nat) (l : list (nat * (kind * stage))) : list (nat * (kind * stage)) :=
  match l with
  | [] => []
  | (b, y) :: l => if Nat.eqb a b then l else (b, y) :: del_act a l
  end.
Definition go a k sg s := set_acts (put_act a (k, sg) (s_acts s)) s.
Definition gone a s := set_acts (del_act a (s_acts s)) s.

(** [pending]: HashMap<u32, _> *)
Fixpoint pfind (n : N) (l : list (N * nat)) : option nat :=
  match l with
  | [] => None
  | (k, a) :: l => if n =? k then Some a else pfind n l
  end.
Fixpoint pdel (n : N) (l : list (N * nat)) : list (N * nat) :=
  match l with
  | [] => []
  | (k, a) :: l => if n =? k then l else (k, a) :: pdel n l
  end.

Definition api_up s := match s_api s with None => true | _ => false end.
Definition msg_up s := match s_msg s with MEnd _ => false | _ => true end.

(** [client_api_task] returns, l.411-491: its channel and [pending] are dropped;
    l.304 [cancel.cancel()] *)
Definition end_api (r : option cerr) (s : st) : st * list out :=
  (set_api (Some r) [] (s_seq s) [] true s, [XApiEnd r]).

(** [client_messages_task] returns, l.493-627; l.290 [cancel.cancel()] *)
Definition end_msg (r : option cerr) (s : st) : st * list out :=
  (set_msg (MEnd r) (s_buf s) (s_uuid s) [] true s, [XMsgEnd r]).

(** l.90-115 [emit_event], [emit_error]; the emitter's receiver lives as long as
    the senders *)
Definition emit (e : cevent) (s : st) : st * list out :=
  (set_emit (s_emit s ++ [e]) s, [XEmit e]).

(** Does some task still hold the sender of the channel activity [a] waits for? *)
Definition is_for (a : nat) (c : cmd) : bool :=
  match c with
  | QRequest _ _ b | QUuid b | QSeq b | QShutdown b => Nat.eqb a b
  | QAccept _ _ => false
  end.
Definition has_sender (a : nat) (s : st) : bool :=
  existsb (is_for a) (s_q s)
  || existsb (fun x => Nat.eqb a (snd x)) (s_pend s)
  || existsb (fun x => match x with AGet b => Nat.eqb a b | ASet _ => false end) (s_qauth s)
  || existsb (Nat.eqb a) (s_qshut s)
  || match s_shut s with ShGot b => Nat.eqb a b && negb (s_over s) | _ => false end.

(** A call returns. *)
Definition return_ a (r : cres) s : st * list out := (gone a s, [XRet a r]).

(** [auth] ends: l.537-545, [tx_auth.send] *)
Definition end_auth a (r : bytes + cerr) s : st * list out :=
  let s1 := gone a s in
  ((if msg_up s then set_qauth (s_qauth s ++ [ASet r]) s1 else s1), [XAuthEnd a r]).

Definition fails a k e s : st * list out :=
  match k with
  | KAuth0 | KAuth1 _ => end_auth a (inr e) s
  | _ => return_ a (RErr e) s
  end.

(** how [auth] reports an error of [api.request] (l.645-651, l.684-690) *)
Definition req_err k e : cerr :=
  match k with KAuth0 | KAuth1 _ => XHandshake | _ => e end.

(** api.rs l.54-70 [request] up to its await *)
Definition request a k n p s : st * list out :=
  if api_up s then (push_q (QRequest n p a) (go a k (WResp n) s), [])
  else fails a k (req_err k XApiChannel) s.

(** api.rs l.35-45 [sequence], l.88-100 [uuid], l.110-119 [shutdown] *)
Definition ask a k (c : cmd) (sg : stage) s : st * list out :=
  if api_up s then (push_q c (go a k sg s), []) else fails a k XApiChannel s.

(** Activity [a] runs until its next await; [ok]: packing succeeds. *)
Definition run_act (a : nat) (ok : bool) (s : st) : option (st * list out) :=
  match act a (s_acts s) with
  | None => None
  | Some (k, sg) =>
    match sg with
    | Init =>
      Some (match k with
            | KReq _ _ | KBeacon _ _ => ask a k (QSeq a) WSeq s      (* REQUEST l.68, BEACON l.41 *)
            | KShutdown => ask a k (QShutdown a) WStop s             (* l.29-31 *)
            | KAuth0 =>                                             (* l.637-642 *)
              if ok then request a k 0 PSelf s else fails a k XProtocol s
            | KAuth1 _ => fails a k XProtocol s                     (* never in this stage *)
            end)
    | GSeq n => Some (ask a k (QUuid a) (WUuid n) s)                (* REQUEST l.69, BEACON l.42 *)
    | GUuid n u =>                                                  (* l.70-79, l.43-51 *)
      Some (match k with
            | KReq _ x | KBeacon _ x =>
              if ok then request a k n (PUser x u) s else fails a k XProtocol s
            | _ => fails a k XProtocol s
            end)
    | GResp n m =>
      Some (match k with
            | KReq r _ =>                                           (* REQUEST l.82-87 *)
              return_ a (match x_answer E r m with Some i => ROk i m | None => RErr XUnexpected end) s
            | KBeacon _ _ =>                                        (* BEACON l.52-62 *)
              return_ a (match x_beacon E m with
                         | Some (Some t) => RErr (XBroadcast t)
                         | Some None => RDone
                         | None => RErr XUnexpected
                         end) s
            | KShutdown => return_ a (RErr XUnexpected) s           (* never in this stage *)
            | KAuth0 =>                                             (* l.652-683 *)
              match x_self E m with
              | None => end_auth a (inr XHandshake) s
              | Some t =>
                if ok then request a (KAuth1 t) 1 PHash s else end_auth a (inr XProtocol) s
              end
            | KAuth1 t =>                                           (* l.691-714 *)
              match x_hash E m with
              | Some None => end_auth a (inl t) s
              | _ => end_auth a (inr XHashCheck) s
              end
            end)
    | GStop =>
      Some (match k with
            | KShutdown => return_ a RDone s
            | _ => fails a k XUnexpected s                          (* never in this stage *)
            end)
    | WSeq | WUuid _ =>
      if has_sender a s then None else Some (fails a k XGetting s)
    | WResp _ =>
      if has_sender a s then None else Some (fails a k (req_err k XGetting) s)
    | WStop =>
      if has_sender a s then None else Some (fails a k XApiChannel s)
    end
  end.

(** l.470-476 *)
Definition u32_max : N := 4294967295.
Definition next_seq (n : N) : N := if u32_max - 1 <=? n + 1 then 10 else n + 1.

(** l.428-489: one command; [ok]: the transport accepts the message *)
Definition api_cmd (c : cmd) (ok : bool) (s : st) : option (st * list out) :=
  match c with
  | QRequest n p a =>                                               (* l.435-444 *)
    match pfind n (s_pend s) with
    | Some _ => Some (end_api (Some (XSequence n)) s)
    | None =>
      let s1 := set_api (s_api s) ((n, a) :: s_pend s) (s_seq s) (s_q s) (s_cancel s) s in
      if ok then Some (s1, [XSend a n p true])
      else let '(s2, t) := end_api (Some XClientChannel) s1 in Some (s2, XSend a n p false :: t)
    end
  | QAccept n m =>                                                  (* l.445-462 *)
    let answer b s1 :=
      match s_msg s1 with
      | MWait h m0 None => (set_mstate (MWait h m0 (Some b)) s1, [])
      | _ => end_api (Some XApiChannel) s1
      end in
    match pfind n (s_pend s) with
    | Some a =>
      let s1 := set_api (s_api s) (pdel n (s_pend s)) (s_seq s) (s_q s) (s_cancel s) s in
      match act a (s_acts s) with
      | Some (k, WResp _) =>
        let '(s2, t) := answer true (go a k (GResp n m) s1) in Some (s2, XMatch a n m :: t)
      | _ => Some (end_api (Some XApiChannel) s1)
      end
    | None => Some (answer false s)
    end
  | QUuid a =>                                                      (* l.463-469 *)
    if msg_up s then Some (set_qauth (s_qauth s ++ [AGet a]) s, [])
    else Some (end_api (Some XApiChannel) s)
  | QSeq a =>                                                       (* l.470-480 *)
    let n := next_seq (s_seq s) in
    let s1 := set_api (s_api s) (s_pend s) n (s_q s) (s_cancel s) s in
    match act a (s_acts s) with
    | Some (k, WSeq) => Some (go a k (GSeq n) s1, [XSeqNo a n])
    | _ => Some (end_api (Some XApiChannel) s1)
    end
  | QShutdown a =>                                                  (* l.481-487; capacity 2: l.198-201 *)
    match s_shut s with
    | ShWait =>
      if Nat.ltb (length (s_qshut s)) 2
      then Some (set_shut (s_qshut s ++ [a]) ShWait (s_cancel s) s, []) else None
    | _ => Some (end_api (Some XApiChannel) s)
    end
  end.

(** What the transport delivers (l.513-603) *)
Inductive cin := InBinary (data : bytes) | InOther | InConnected | InDisconnected | InError.

(** The task of the connection panics: everything it owns is dropped. *)
Definition crash (s : st) : st * list out :=
  let s1 := set_api (Some (Some XPanic)) [] (s_seq s) [] true s in
  let s2 := set_msg (MEnd (Some XPanic)) (s_buf s) (s_uuid s) [] true s1 in
  let s3 := set_shut [] ShNone true s2 in
  (set_over (set_cli (Some (Some XPanic)) true s3), [XOver false (Some XPanic)]).

Definition client_event (e : cin) (s : st) : st * list out :=
  match e with
  | InBinary data =>
    match chunk (x_get E) (x_sig E) (s_buf s) data with
    | (COk, b) => (set_msg MDrain b (s_uuid s) (s_qauth s) (s_cancel s) s, [])
    | (CErr _, b) =>
      emit (EError XBuffer) (set_msg MIdle b (s_uuid s) (s_qauth s) (s_cancel s) s)
    | (CPanic, b) => crash s
    end
  | InOther => emit (EError XUnknown) s
  | InConnected => (s, [])
  | InDisconnected => (set_msg (s_msg s) (s_buf s) None (s_qauth s) (s_cancel s) s, [])
  | InError => emit (EError XClient) s
  end.

(** l.562-570 *)
Definition dispatch (m : M) (s : st) : st * list out :=
  let s1 := set_mstate MDrain s in
  match x_broadcast E m with
  | Some b => emit (EBroadcast b m) s1
  | None => emit (EError XUnknown) s1
  end.

(** l.548-561 when [api.accept] fails *)
Definition not_accepted (m : M) (s : st) : st * list out :=
  let '(s1, t) := emit (EError XPending) s in
  let '(s2, t2) := dispatch m s1 in (s2, t ++ t2).

(** l.525-561: the next message of the buffer *)
Definition next_msg (s : st) : st * list out :=
  match next (s_buf s) with
  | (None, b) => (set_msg MIdle b (s_uuid s) (s_qauth s) (s_cancel s) s, [])
  | (Some (h, m), b) =>
    let s1 := set_msg MDrain b (s_uuid s) (s_qauth s) (s_cancel s) s in
    if x_confirm E m then (add_act KAuth0 s1, [XIn h m; XSpawn (s_next s1)])
    else if api_up s
    then (push_q (QAccept (h_seq h) m) (set_mstate (MWait h m None) s1), [XIn h m])
    else let '(s2, t) := not_accepted m s1 in (s2, XIn h m :: t)
  end.

(** l.604-623 *)
Definition auth_msg (x : amsg) (s : st) : st * list out :=
  match x with
  | ASet (inl t) =>
    match x_uuid E t with
    | Some u => emit EConnected (set_msg (s_msg s) (s_buf s) (Some u) (s_qauth s) (s_cancel s) s)
    | None => end_msg (Some XUuid) s
    end
  | ASet (inr e) =>
    let '(s1, t) := emit (EError e) s in
    let '(s2, t2) := end_msg (Some e) s1 in (s2, t ++ t2)
  | AGet a =>
    match act a (s_acts s) with
    | Some (k, WUuid n) => (go a k (GUuid n (s_uuid s)) s, [])
    | _ => end_msg (Some XApiChannel) s
    end
  end.

(** Which task takes the next step.  [LCall]: the application makes a call,
    [LDrop]: it abandons one; [LCancel]: it cancels the token of
    [get_shutdown_token] (render_controller.rs l.33-35). *)
Inductive label :=
| LCall (k : kind) | LDrop (a : nat) | LCancel
| LAct (a : nat) (ok : bool) | LTimeout (a : nat)
| LApi (ok : bool) | LApiCancel
| LEvent (e : cin) | LClosed | LNext | LAnswer | LAuth | LMsgCancel
| LClient (ok : bool) | LClientCancel
| LShut | LShutCancel | LDone | LOver | LEmit | LAwait (a : nat) | LHandled.

Definition user_kind (k : kind) : bool :=
  match k with KAuth0 | KAuth1 _ => false | _ => true end.

(** l.332-340 and l.348-354: the first error *)
Definition first_err (a b c : option cerr) : option cerr :=
  match a with Some e => Some e | None => match b with Some e => Some e | None => c end end.

(** One transition; [None]: not enabled. *)
Definition fire (l : label) (s : st) : option (st * list out) :=
  match l with
  | LCall k => if user_kind k then Some (add_act k s, [XCall (s_next s) k]) else None
  | LDrop a =>
    match act a (s_acts s) with
    | Some (k, _) => if user_kind k then Some (gone a s, [XDrop a]) else None
    | None => None
    end
  | LCancel => Some (set_cli (s_cli s) true s, [XCancel])
  | LAct a ok => run_act a ok s
  | LTimeout a =>                                  (* REQUEST l.73-81; beacons have none *)
    match act a (s_acts s) with
    | Some (KReq _ _, (WResp _ | GResp _ _)) => Some (return_ a (RErr XTimeout) s)
    | _ => None
    end
  | LApi ok =>                                     (* l.424-427 *)
    if api_up s then
      match s_q s with
      | c :: q => api_cmd c ok (set_api (s_api s) (s_pend s) (s_seq s) q (s_cancel s) s)
      | [] => None
      end
    else None
  | LApiCancel => if api_up s && s_cancel s then Some (end_api None s) else None
  | LEvent e => match s_msg s with MIdle => Some (client_event e s) | _ => None end
  | LClosed => match s_msg s with MIdle => Some (end_msg None s) | _ => None end
  | LNext => match s_msg s with MDrain => Some (next_msg s) | _ => None end
  | LAnswer =>
    match s_msg s with
    | MWait h m (Some true) => Some (set_mstate MDrain s, [])
    | MWait h m (Some false) => Some (dispatch m s)
    | MWait h m None => if api_up s then None else Some (not_accepted m s)
    | _ => None
    end
  | LAuth =>
    match s_msg s, s_qauth s with
    | MIdle, x :: q => Some (auth_msg x (set_qauth q s))
    | _, _ => None
    end
  | LMsgCancel =>
    match s_msg s with
    | MIdle => if s_cancel s then Some (end_msg None s) else None
    | _ => None
    end
  | LClient ok =>                                  (* l.307-328 *)
    match s_cli s with
    | Some _ => None
    | None =>
      let r := if ok then None else Some XClient in
      let '(s1, t) := if ok then (s, []) else emit (EError XClient) s in
      let '(s2, t2) := emit EDisconnected s1 in
      Some (set_cli (Some r) true s2, t ++ t2 ++ [XCliEnd r])
    end
  | LClientCancel =>
    match s_cli s with
    | Some _ => None
    | None =>
      if s_cancel s then
        let '(s2, t2) := emit EDisconnected s in
        Some (set_cli (Some None) true s2, t2 ++ [XCliEnd None])
      else None
    end
  | LShut =>                                       (* l.247-263; [cancel] is set at once *)
    match s_shut s, s_qshut s with
    | ShWait, a :: q => Some (set_shut [] (ShGot a) true s, [])
    | _, _ => None
    end
  | LShutCancel =>
    match s_shut s with
    | ShWait => if s_cancel s then Some (set_shut [] ShNone (s_cancel s) s, []) else None
    | _ => None
    end
  | LDone =>                                       (* l.330-354 *)
    match s_api s, s_msg s, s_cli s, s_done s with
    | Some ra, MEnd rm, Some rc, false =>
      let '(s1, t) := emit (EShutdown (first_err rc rm ra)) s in Some (set_done s1, t)
    | _, _, _, _ => None
    end
  | LOver =>                                       (* l.356-372: all four subtasks have returned *)
    match s_api s, s_msg s, s_cli s, s_emit s, s_hand s with
    | Some ra, MEnd rm, Some rc, [], None =>
      if s_done s && negb (s_over s) then
        match s_shut s with
        | ShWait => None
        | ShGot a =>
          let s2 := set_over s in
          let s3 := match act a (s_acts s2) with Some (k, WStop) => go a k GStop s2 | _ => s2 end in
          Some (s3, [XOver true (first_err rm ra rc)])
        | ShNone => Some (set_over s, [XOver false (first_err rm ra rc)])
        end
      else None
    | _, _, _, _, _ => None
    end
  | LEmit =>                                       (* l.387-402 *)
    match s_emit s, s_hand s with
    | e :: q, None => Some (set_hand (Some None) (set_emit q s), [XEvent e])
    | _, _ => None
    end
  | LAwait a =>                                    (* the running handler awaits call [a] *)
    match s_hand s, act a (s_acts s) with
    | Some None, Some (k, _) => if user_kind k then Some (set_hand (Some (Some a)) s, []) else None
    | _, _ => None
    end
  | LHandled =>                                    (* the awaited call has returned; the handler returns *)
    match s_hand s with
    | Some None => Some (set_hand None s, [])
    | Some (Some a) =>
      match act a (s_acts s) with None => Some (set_hand (Some None) s, []) | Some _ => None end
    | None => None
    end
  end.

Fixpoint runs (ls : list label) (s : st) : option (st * list out) :=
  match ls with
  | [] => Some (s, [])
  | l :: ls =>
    match fire l s with
    | None => None
    | Some (s1, t) =>
      match runs ls s1 with
      | None => None
      | Some (s2, t2) => Some (s2, t ++ t2)
      end
    end
  end.

End Consumer.
