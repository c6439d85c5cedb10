(** Model of a generated TypeScript consumer (client side):
    cli/src/workflow/render/consumer/typescript/render_consumer.rs (templates
    [MODULE] l.10-262 and [BROADCAST_CHECKS] l.263-271), render_request.rs
    ([MODULE] l.8-69, [get_response_handler] l.258-350) and render_beacon.rs
    ([MODULE] l.8-111).  Line numbers without a file are of render_consumer.rs.

    JavaScript runs one piece of code at a time: a handler of a transport event, a
    call of the application or the continuation of a settled promise ([then]).
    Every such piece is one transition, except that [_onData] makes one transition
    per message it takes from the queue, because the handlers of a broadcast may
    make calls in the middle of the loop.  Continuations whose promise is settled
    run in any order: JavaScript runs them in the order in which they were settled,
    which is one of these orders.  What the code cannot influence (what the
    transport delivers, whether a message can be packed or sent, when the
    application calls) is part of the label.

    Left out: logging; the handlers that the application attaches to request
    objects (they run in the continuation that settles the promise); the global
    registration of the consumer; [destroy] of the consumer, after which no
    transport event comes any more, which is the end of an execution.  The methods
    [request] and [getSequence] and the setter of [uuid], which are public because
    the generated classes need them, are taken to be used by the generated code
    only. *)
From Coq Require Import List NArith Bool.
From Coq Require Import Strings.Byte.
From Verif Require Import Bytes WireModel FrameModel TsModel.
Import ListNotations.
Open Scope N_scope.

(** The generated protocol, and the declarations of the workflow. *)
Record tenv := mkTenv {
  t_msg : Type;                                  (* Protocol.IAvailableMessages *)
  t_get : N -> bytes -> res t_msg err;           (* BufferReaderMessages.getMessage *)
  t_sig : N;                                     (* BufferReaderMessages.signature *)
  t_self : t_msg -> option bytes;                (* SelfKeyResponse.uuid *)
  t_hash : t_msg -> option (option bytes);       (* HashResponse.error *)
  t_beacon : t_msg -> option (option bytes);     (* BeaconConfirmation.error *)
  t_answer : nat -> t_msg -> option nat;         (* alternatives of request r, first match *)
  t_broadcast : t_msg -> option nat;             (* cases of [BROADCAST_CHECKS] *)
  t_blank : bytes -> bool                        (* value.trim() === '' *)
}.

(** interfaces/request.ts [ERequestState] (render_interfaces_request.rs l.9-13) *)
Inductive ostate := OReady | OPending | ODestroyed.

(** What the [reject]s of the templates say, texts left out. *)
Inductive terr :=
| EBusy                     (* render_request.rs l.38, render_beacon.rs l.45 *)
| EGone                     (* render_request.rs l.41, l.52; render_beacon.rs l.50, l.93 *)
| EPack                     (* [pack] throws inside the executor of the promise *)
| ESend                     (* render_consumer.rs l.158 *)
| ENumber                   (* render_consumer.rs l.154 *)
| EUnexpected               (* no such message in the response *)
| EUuid                     (* render_consumer.rs l.92: getter of [uuid] *)
| EText (t : bytes).        (* the error sent by the server *)

Section Types.
Variable M : Type.    (* Protocol.IAvailableMessages *)

(** What a promise is for: [assign] of the application ([WAssign false]) or of
    [_onClientConnected] ([WAssign true]), [_hash], [send] of request class [r] or
    beacon class [b] with object [o]. *)
Inductive what :=
| WAssign (auto : bool) | WHash (u : bytes) | WReq (r o : nat) | WBeacon (b o : nat).

(** Where the promise stands: [request] waits for the response to number [n];
    its [resolve] has been called with [m], the continuation is to run;
    [assign] of [_onClientConnected] is resolved with [u], its continuation is to
    run; settled. *)
Inductive stage := TWait (n : N) | TGot (n : N) (m : M) | THash (u : bytes) | TDone.

Inductive tret :=
| RetAnswer (i : nat) (m : M)      (* alternative [i] of the request *)
| RetBeacon | RetUuid (u : bytes) | RetHash | RetErr (e : terr).

(** What packing and sending a message may come to. *)
Inductive sres := SThrow | SRefuse | SOk.

(** The fields of the consumer (l.70-80), and the promises and objects made so far. *)
Record tst := mkTst {
  c_seq : N;                       (* _sequence, l.80 *)
  c_pend : N -> option nat;        (* _pending: number -> promise *)
  c_uuid : option bytes;           (* _uuid *)
  c_buf : rbuf M;                  (* _buffer *)
  c_drain : bool;                  (* inside the loop of [_onData] *)
  c_obj : nat -> ostate;           (* _state of the request and beacon objects *)
  c_act : nat -> option (what * stage)
}.

Definition tinit : tst :=
  mkTst 1 (fun _ => None) None (mkBuf [] []) false (fun _ => OReady) (fun _ => None).

(** What happens, in the order in which it happens. *)
Inductive tev :=
| VCall (a : nat) (w : what)                 (* the promise is made *)
| VNum (a : nat) (n : N) (r : sres)          (* number taken, outcome of pack and send *)
| VRet (a : nat) (r : tret)                  (* the promise is settled *)
| VRead (h : header) (m : M)                 (* taken from the queue *)
| VMatch (a : nat) (n : N) (m : M)           (* given to a pending promise *)
| VBroadcast (b : nat) (m : M)               (* broadcast.[..].emit *)
| VStray (m : M)                             (* l.267: a warning in the log, nothing if no broadcast is declared *)
| VConnected | VDisconnected | VError        (* the subjects of the consumer *)
| VReady (u : bytes)
| VChunk (data : bytes) (o : ts_outcome).    (* a piece of data, what [chunk] did *)

Inductive label :=
| LSend (a : nat) (w : what) (r : sres)      (* [send] of a request or a beacon *)
| LAssign (a : nat) (r : sres)               (* [assign] of the application *)
| LDestroy (o : nat)                         (* [destroy] of a request or a beacon *)
| LConnected (a : nat) (r : sres)
| LDisconnected
| LError
| LData (data : bytes) (fuel : nat)
| LNext
| LRun (a : nat)                             (* the continuation of promise [a] *)
| LHash (a b : nat) (r : sres).              (* l.219-220: the same, starting [_hash] *)

(** Maps (JavaScript [Map]s and objects) as functions. *)
Definition upd {A} (f : nat -> A) (a : nat) (x : A) : nat -> A :=
  fun k => if Nat.eqb k a then x else f k.
Definition updN {A} (f : N -> A) (n : N) (x : A) : N -> A :=
  fun k => if k =? n then x else f k.

(** Assignments to the fields of the consumer, of promise [a], of object [o]. *)
Definition set_act (s : tst) (a : nat) (w : what) (g : stage) : tst :=
  mkTst (c_seq s) (c_pend s) (c_uuid s) (c_buf s) (c_drain s) (c_obj s)
        (upd (c_act s) a (Some (w, g))).
Definition set_obj (s : tst) (o : nat) (x : ostate) : tst :=
  mkTst (c_seq s) (c_pend s) (c_uuid s) (c_buf s) (c_drain s) (upd (c_obj s) o x) (c_act s).
Definition set_uuid (s : tst) (u : option bytes) : tst :=
  mkTst (c_seq s) (c_pend s) u (c_buf s) (c_drain s) (c_obj s) (c_act s).
Definition set_buf (s : tst) (b : rbuf M) (d : bool) : tst :=
  mkTst (c_seq s) (c_pend s) (c_uuid s) b d (c_obj s) (c_act s).
Definition set_pend (s : tst) (p : N -> option nat) : tst :=
  mkTst (c_seq s) p (c_uuid s) (c_buf s) (c_drain s) (c_obj s) (c_act s).

End Types.

Arguments VCall {M}.
Arguments VNum {M}.
Arguments VRet {M}.
Arguments VRead {M}.
Arguments VMatch {M}.
Arguments VBroadcast {M}.
Arguments VStray {M}.
Arguments VConnected {M}.
Arguments VDisconnected {M}.
Arguments VError {M}.
Arguments VReady {M}.
Arguments VChunk {M}.
Arguments RetAnswer {M}.
Arguments RetBeacon {M}.
Arguments RetUuid {M}.
Arguments RetHash {M}.
Arguments RetErr {M}.
Arguments TWait {M}.
Arguments TGot {M}.
Arguments THash {M}.
Arguments TDone {M}.
Arguments mkTst {M}.
Arguments c_seq {M}.
Arguments c_pend {M}.
Arguments c_uuid {M}.
Arguments c_buf {M}.
Arguments c_drain {M}.
Arguments c_obj {M}.
Arguments c_act {M}.
Arguments set_act {M}.
Arguments set_obj {M}.
Arguments set_uuid {M}.
Arguments set_buf {M}.
Arguments set_pend {M}.
Arguments tinit {M}.

Section Client.
Variable E : tenv.
Local Notation M := (t_msg E).
Local Notation tst := (tst M).
Local Notation tev := (tev M).

(** l.188-190 [getSequence], the packing of the message with that number (which
    throws if the number is not a [u32], protocol.convertor.ts l.209-212) and
    l.152-166 [request].  [a] is the promise that is made. *)
Definition begin (s : tst) (a : nat) (w : what) (r : sres) : option (tst * list tev) :=
  match c_act s a with
  | Some _ => None
  | None =>
    let n := c_seq s in
    let s1 := mkTst (n + 1) (c_pend s) (c_uuid s) (c_buf s) (c_drain s) (c_obj s) (c_act s) in
    let lost e := Some (set_act s1 a w TDone,
                        [VCall a w; VNum a n r; VRet a (RetErr e)]) in
    match r with
    | SThrow => lost EPack
    | _ =>
      if 2 ^ 32 <=? n then None                              (* [pack] throws *)
      else match c_pend s n with
      | Some _ => match r with SRefuse => lost ENumber | _ => None end   (* l.153-155 *)
      | None =>
        match r with
        | SRefuse => lost ESend                              (* l.156-159 *)
        | _ =>                                               (* l.163-165 *)
          let s2 := set_pend s1 (updN (c_pend s) n (Some a)) in
          Some (set_act s2 a w (TWait n), [VCall a w; VNum a n r])
        end
      end
    end
  end.

(** render_request.rs l.31-46, render_beacon.rs l.38-59: [send] *)
Definition send (s : tst) (a : nat) (w : what) (o : nat) (r : sres) : option (tst * list tev) :=
  match c_act s a with
  | Some _ => None
  | None =>
    match c_obj s o with
    | OPending => Some (set_act s a w TDone, [VCall a w; VRet a (RetErr EBusy)])
    | ODestroyed => Some (set_act s a w TDone, [VCall a w; VRet a (RetErr EGone)])
    | OReady => begin (set_obj s o OPending) a w r
    end
  end.

(** l.99-111: setter of [uuid] *)
Definition keep_uuid (old : option bytes) (u : bytes) : option bytes :=
  if t_blank E u then old
  else match old with Some v => Some v | None => Some u end.

(** The continuation of [request] (promise [a], response [m]). *)
Definition resume (s : tst) (a : nat) (w : what) (m : M) : tst * list tev :=
  let settle s r := (set_act s a w TDone, [VRet a r]) in
  match w with
  | WAssign auto =>                                          (* l.172-185 *)
    match t_self E m with
    | None => settle s (RetErr EUnexpected)
    | Some u =>
      let s1 := set_uuid s (keep_uuid (c_uuid s) u) in
      match c_uuid s1 with
      | None => settle s1 (RetErr EUuid)
      | Some _ =>
        (set_act s1 a w (if auto then THash u else TDone), [VRet a (RetUuid u)])
      end
    end
  | WHash u =>                                               (* l.199-214, l.220-222 *)
    match t_hash E m with
    | None => settle s (RetErr EUnexpected)
    | Some (Some t) => settle s (RetErr (EText t))
    | Some None => (set_act s a w TDone, [VRet a RetHash; VReady u])
    end
  | WReq r o =>                                              (* render_request.rs l.47-55 *)
    match c_obj s o with
    | OPending =>
      settle (set_obj s o OReady)
             (match t_answer E r m with
              | Some i => RetAnswer i m
              | None => RetErr EUnexpected
              end)
    | ODestroyed => settle s (RetErr EGone)
    | OReady => (set_act s a w TDone, [])                    (* no case of the switch *)
    end
  | WBeacon b o =>                                           (* render_beacon.rs l.60-104 *)
    match c_obj s o with
    | OPending =>
      settle (set_obj s o OReady)
             (match t_beacon E m with
              | None => RetErr EUnexpected
              | Some (Some t) => RetErr (EText t)
              | Some None => RetBeacon
              end)
    | ODestroyed => settle s (RetErr EGone)
    | OReady => (set_act s a w TDone, [])
    end
  end.

Definition fire (s : tst) (l : label) : option (tst * list tev) :=
  match l with
  | LSend a (WReq r o) x => send s a (WReq r o) o x
  | LSend a (WBeacon b o) x => send s a (WBeacon b o) o x
  | LSend _ _ _ => None
  | LAssign a x => begin s a (WAssign false) x
  | LDestroy o => Some (set_obj s o ODestroyed, [])          (* render_request.rs l.24-29 *)
  | LConnected a x =>                                        (* l.217-230 *)
    if c_drain s then None
    else match begin s a (WAssign true) x with
         | Some (s', es) => Some (s', es ++ [VConnected])
         | None => None
         end
  | LDisconnected =>                                         (* l.232-236 *)
    if c_drain s then None else Some (set_uuid s None, [VDisconnected])
  | LError => if c_drain s then None else Some (s, [VError]) (* l.238-241 *)
  | LData data fuel =>                                       (* l.243-248 *)
    if c_drain s then None
    else match ts_chunk (t_get E) (t_sig E) fuel (c_buf s) data with
         | None => None
         | Some (o, b) =>
           Some (set_buf s b (match o with TReturned 0 => true | _ => false end),
                 [VChunk data o])
         end
  | LNext =>                                                 (* l.249-260 *)
    if c_drain s then
      match rb_queue (c_buf s) with
      | [] => Some (set_buf s (c_buf s) false, [])
      | (h, m) :: q =>
        let s1 := set_buf s (mkBuf (rb_buf (c_buf s)) q) true in
        match c_pend s1 (h_seq h) with
        | Some a =>
          match c_act s1 a with
          | Some (w, _) =>
            Some (set_act (set_pend s1 (updN (c_pend s1) (h_seq h) None)) a w (TGot (h_seq h) m),
                  [VRead h m; VMatch a (h_seq h) m])
          | None => None
          end
        | None =>
          match t_broadcast E m with
          | Some b => Some (s1, [VRead h m; VBroadcast b m])
          | None => Some (s1, [VRead h m; VStray m])
          end
        end
      end
    else None
  | LRun a =>
    if c_drain s then None
    else match c_act s a with
         | Some (w, TGot _ m) => Some (resume s a w m)
         | _ => None
         end
  | LHash a b x =>
    if c_drain s then None
    else match c_act s a with
         | Some (w, THash u) => begin (set_act s a w TDone) b (WHash u) x
         | _ => None
         end
  end.

(** An execution, from [tinit]: the labels, the final state and what happened. *)
Inductive trun : list label -> tst -> list tev -> Prop :=
| trun_nil : trun [] tinit []
| trun_step ls s tr l s' es : trun ls s tr -> fire s l = Some (s', es) ->
    trun (ls ++ [l]) s' (tr ++ es).

Fixpoint texec (s : tst) (ls : list label) (tr : list tev) : option (tst * list tev) :=
  match ls with
  | [] => Some (s, tr)
  | l :: ls => match fire s l with
               | Some (s', es) => texec s' ls (tr ++ es)
               | None => None
               end
  end.

Lemma texec_trun ls : forall l0 s tr s' tr', trun l0 s tr ->
  texec s ls tr = Some (s', tr') -> trun (l0 ++ ls) s' tr'.
Proof.
  induction ls as [|l ls IH]; intros l0 s tr s' tr' R H; cbn [texec] in H.
  - injection H as <- <-. rewrite app_nil_r. exact R.
  - destruct (fire s l) as [[s1 es]|] eqn:F; [|discriminate H].
    replace (l0 ++ l :: ls) with ((l0 ++ [l]) ++ ls) by (rewrite <- app_assoc; reflexivity).
    eapply IH; [|exact H]. econstructor; eassumption.
Qed.

End Client.

