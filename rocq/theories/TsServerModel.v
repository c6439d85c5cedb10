(** Model of a generated TypeScript producer (server side):
    cli/src/workflow/render/producer/typescript/render_mod.rs ([MODULE] l.8-561,
    [REQUEST] l.562-577, [BEACON] l.578-593, [EVENT_SUBSCRIPTION] l.594-605),
    render_request_handler.rs, render_beacon_emitter.rs, render_event_emitter.rs,
    render_identification.rs and static/implementation/{consumer,scope,events}.
    Line numbers without a file are of render_mod.rs.

    As in TsClientModel.v, JavaScript runs one piece of code at a time, and every
    piece is one transition, except that [_onClientReceived] makes one transition
    per message it takes from the queue: in the middle of its loop it calls code of
    the application, which may use the [Identification] of a client, and of the
    transport, which may report at once that a client is gone.

    Left out: logging; [ready], [shutdown] and errors of the transport, which are
    only handed to the application; what the application sends and disconnects of
    its own accord; the contents of the keys.  The functions of the application are
    taken to return promises; an exception thrown by them inside
    [_onClientReceived] is not modelled. *)
From Coq Require Import List NArith Bool.
From Coq Require Import Strings.Byte.
From Verif Require Import Bytes WireModel FrameModel TsModel.
From Verif Require ProducerModel.
Import ListNotations.
Open Scope N_scope.

(** An action of a request (workflow/request.rs): the id of its response and the
    ids of its broadcasts, each with [optional]. *)
Record action := mkAction { a_resp : N; a_bcast : list (N * bool) }.

(** The generated protocol, the declarations of the workflow and the options. *)
Record qenv := mkQenv {
  q_msg : Type;                                (* Protocol.IAvailableMessages *)
  q_get : N -> bytes -> res q_msg err;         (* BufferReaderMessages.getMessage *)
  q_sig : N;
  q_self : q_msg -> bool;                      (* the self key of the workflow, l.250-253 *)
  q_hash : q_msg -> option (bytes * bytes);    (* HashRequest: protocol, workflow, l.276-279 *)
  q_proto : bytes; q_work : bytes;             (* Producer.hash, l.30-38 *)
  q_for : q_msg -> option (bool * nat);        (* [[requests]] (true) and [[beacons]] (false), first match *)
  q_req : nat -> list action;                  (* the actions of a request *)
  q_event : nat -> list (N * bool);            (* the broadcasts of an event *)
  q_out : Type;                                (* Protocol.Convertor: what the application sends *)
  q_id : q_out -> N;                           (* getId() *)
  q_cs : ProducerModel.cstrategy;              (* Options.consumerErrorHandelingStrategy *)
  q_is : ProducerModel.istrategy               (* Options.producerIndentificationStrategy *)
}.

(** events/error.ts l.5-14 [ProducerErrorType] *)
Inductive qerr := QConnection | QDisconnection | QHashes | QNoHash | QNoKey | QNotAssigned | QData.

Section Types.
Variables M X : Type.

(** consumer/index.ts l.8-52 [Consumer] and its [Identification]
    (render_identification.rs l.13-28) *)
Record kons := mkKons {
  k_uuid : N; k_key : bool; k_assigned : bool; k_disc : bool; k_hash : bool; k_buf : rbuf M
}.

(** What the generated code packs and hands to the transport. *)
Inductive qpay := PSelf (u : N) | PHash (ok : bool) | PAnswer (x : X) | PConfirm.

(** The response object of a request: render_request_handler.rs l.19-48, l.125-135 *)
Record robj := mkRobj { r_msg : X; r_bs : list (list N * X) }.

(** A running handler (a promise of [Responses] or [Beacons]): the function of the
    application runs; the answer has been handed to the transport; the broadcasts
    have; it has ended. *)
Inductive tstage := QRun | QSent (bs : list (list N * X)) | QLast | QDone.
Record task := mkTask { j_obj : nat; j_kind : bool * nat; j_num : N; j_stage : tstage }.

(** What the promise of the application comes to.  [HAnswer x ops packs]: it is
    resolved with [new Response(x)], on which [broadcast(uuids).name(msg)] was
    called with [ops]; [packs] tells whether the answer can be packed. *)
Inductive hres := HReject | HAnswer (x : X) (ops : list (list N * X)) (packs : bool).

Record qst := mkQst {
  p_map : N -> option nat;           (* _consumers, l.41: uuid -> object *)
  p_obj : nat -> option kons;        (* the [Consumer] objects *)
  p_objs : nat;                      (* how many have been made *)
  p_loop : option nat;               (* inside the loop of [_onClientReceived] *)
  p_task : nat -> option task;
  p_tasks : nat
}.

Definition qinit : qst := mkQst (fun _ => None) (fun _ => None) 0 None (fun _ => None) 0.

(** Who sends: the loop of [_onClientReceived] or a running handler. *)
Inductive source := ByLoop | ByTask (t : nat).

Inductive qev :=
| OConnected (u : N) (o : nat)               (* connectedHandler, with the new object *)
| ODisconnected (u : N) (o : nat)
| OChunk (o : nat) (data : bytes) (r : ts_outcome)
| ORead (o : nat) (h : header) (m : M)       (* taken from the queue of [o] *)
| OKey (o : nat) (app : bool)                (* Identification.key, by the application? *)
| OAssign (o : nat) | ODiscredit (o : nat)   (* by the application *)
| OHash (o : nat)                            (* acceptHash *)
| OStart (t o : nat) (h : header) (m : M)    (* a handler of the application is called *)
| OResult (t : nat) (x : X) (bs : list (list N * X))   (* it has made a response *)
| OSend (c : source) (u n : N) (p : qpay)    (* handed to the transport, with this number *)
| OBroad (c : option nat) (u : N) (x : X)    (* the same, with number 0 *)
| OAsk (u : N)                               (* disconnect *)
| OErr (e : qerr) (o : option nat)           (* errorHandler *)
| OFail (t : nat)                            (* the handler is rejected *)
| ODeferred (t : nat)                        (* scope.call() *)
| OEventErr (e : nat).

Inductive qlabel :=
| LConnected (u : N)
| LDisconnected (u : N)
| LData (u : N) (data : bytes) (fuel : nat)
| LNext
| LKey (o : nat) | LAssign (o : nat) | LDiscredit (o : nat)
| LEnd (t : nat) (r : hres)
| LSent (t : nat) (ok : bool) (k : option nat)
| LLast (t : nat) (ok : bool)
| LEvent (e : nat) (r : option (list (list N * X))) (k : option nat).

Definition updn {A} (f : nat -> A) (a : nat) (x : A) : nat -> A :=
  fun k => if Nat.eqb k a then x else f k.
Definition updk {A} (f : N -> A) (n : N) (x : A) : N -> A :=
  fun k => if k =? n then x else f k.

Definition put_obj (s : qst) (o : nat) (c : kons) : qst :=
  mkQst (p_map s) (updn (p_obj s) o (Some c)) (p_objs s) (p_loop s) (p_task s) (p_tasks s).
Definition put_loop (s : qst) (l : option nat) : qst :=
  mkQst (p_map s) (p_obj s) (p_objs s) l (p_task s) (p_tasks s).
Definition put_task (s : qst) (t : nat) (j : task) : qst :=
  mkQst (p_map s) (p_obj s) (p_objs s) (p_loop s) (updn (p_task s) t (Some j)) (p_tasks s).

Definition put_buf (c : kons) (b : rbuf M) : kons :=
  mkKons (k_uuid c) (k_key c) (k_assigned c) (k_disc c) (k_hash c) b.
Definition put_key (c : kons) : kons :=
  mkKons (k_uuid c) true (k_assigned c) (k_disc c) (k_hash c) (k_buf c).
Definition put_assigned (c : kons) : kons :=
  mkKons (k_uuid c) (k_key c) true (k_disc c) (k_hash c) (k_buf c).
Definition put_disc (c : kons) : kons :=
  mkKons (k_uuid c) (k_key c) (k_assigned c) true (k_hash c) (k_buf c).
Definition put_hash (c : kons) : kons :=
  mkKons (k_uuid c) (k_key c) (k_assigned c) (k_disc c) true (k_buf c).
End Types.

Arguments mkKons {M}.
Arguments k_uuid {M}.
Arguments k_key {M}.
Arguments k_assigned {M}.
Arguments k_disc {M}.
Arguments k_hash {M}.
Arguments k_buf {M}.
Arguments PSelf {X}.
Arguments PHash {X}.
Arguments PAnswer {X}.
Arguments PConfirm {X}.
Arguments mkRobj {X}.
Arguments r_msg {X}.
Arguments r_bs {X}.
Arguments QRun {X}.
Arguments QSent {X}.
Arguments QLast {X}.
Arguments QDone {X}.
Arguments mkTask {X}.
Arguments j_obj {X}.
Arguments j_kind {X}.
Arguments j_num {X}.
Arguments j_stage {X}.
Arguments HReject {X}.
Arguments HAnswer {X}.
Arguments mkQst {M X}.
Arguments p_map {M X}.
Arguments p_obj {M X}.
Arguments p_objs {M X}.
Arguments p_loop {M X}.
Arguments p_task {M X}.
Arguments p_tasks {M X}.
Arguments qinit {M X}.
Arguments OConnected {M X}.
Arguments ODisconnected {M X}.
Arguments OChunk {M X}.
Arguments ORead {M X}.
Arguments OKey {M X}.
Arguments OAssign {M X}.
Arguments ODiscredit {M X}.
Arguments OHash {M X}.
Arguments OStart {M X}.
Arguments OResult {M X}.
Arguments OSend {M X}.
Arguments OBroad {M X}.
Arguments OAsk {M X}.
Arguments OErr {M X}.
Arguments OFail {M X}.
Arguments ODeferred {M X}.
Arguments OEventErr {M X}.
Arguments LConnected {X}.
Arguments LDisconnected {X}.
Arguments LData {X}.
Arguments LNext {X}.
Arguments LKey {X}.
Arguments LAssign {X}.
Arguments LDiscredit {X}.
Arguments LEnd {X}.
Arguments LSent {X}.
Arguments LLast {X}.
Arguments LEvent {X}.
Arguments put_obj {M X}.
Arguments put_loop {M X}.
Arguments put_task {M X}.
Arguments put_buf {M}.
Arguments put_key {M}.
Arguments put_assigned {M}.
Arguments put_disc {M}.
Arguments put_hash {M}.

Section Server.
Variable E : qenv.
Local Notation M := (q_msg E).
Local Notation X := (q_out E).
Local Notation qst := (qst M X).
Local Notation qev := (qev M X).
Local Notation kons := (kons M).

(** render_identification.rs l.64-78: [assigned].  The test is [this.assign ===
    undefined] (l.65), and [this.assign] is a method of the class (l.54-62), not
    the field [_assigned] (l.18): it is never [undefined]. *)
Definition assign_is_undefined : bool := false.
Definition assigned (c : kons) : bool :=
  if assign_is_undefined then
    match q_is E with
    | ProducerModel.IIgnore | ProducerModel.ILog => true
    | _ => false
    end
  else true.

(** l.448-504: [_receivingErr] *)
Definition receiving_err (u : N) (o : option nat) : list qev :=
  match q_cs E, o with
  | ProducerModel.SDisc, Some _ | ProducerModel.SEmitDisc, Some _ => [OAsk u]
  | _, _ => []
  end ++
  match q_cs E with
  | ProducerModel.SEmit | ProducerModel.SEmitDisc => [OErr QData o]
  | _ => []
  end.

(** render_request_handler.rs l.266-278: the methods that [broadcast] returns, one
    per declared broadcast of every action; of two with the same name the later
    one counts. *)
Definition method (acts : list action) (ref : N) : option action :=
  fold_left (fun found a => if existsb (fun b => fst b =? ref) (a_bcast a) then Some a else found)
            acts None.

(** render_request_handler.rs l.78-100 [BROADCAST_IMPL]: one call; an exception
    leaves the object as it was. *)
Definition add_broadcast (acts : list action) (r : robj X) (op : list N * X) : robj X :=
  match method acts (q_id E (snd op)) with
  | None => r                                              (* there is no such method *)
  | Some a =>
    if negb (q_id E (r_msg r) =? a_resp a) then r          (* l.79-86 *)
    else if existsb (fun b => q_id E (snd b) =? q_id E (snd op)) (r_bs r) then r   (* l.87-97 *)
    else mkRobj (r_msg r) (r_bs r ++ [op])                 (* l.98 *)
  end.

Definition has_broadcast (bs : list (list N * X)) (ref : N) : bool :=
  existsb (fun b => q_id E (snd b) =? ref) bs.

(** render_request_handler.rs l.36-39, l.101-120 [BROADCAST_CHECK], l.280-294: is
    there an error?  [REQUIRED_..] (l.212-235) are the broadcasts that are not optional. *)
Definition lacks (bs : list (list N * X)) (ds : list (N * bool)) : bool :=
  existsb (fun d => negb (snd d) && negb (has_broadcast bs (fst d))) ds.
Definition response_error (acts : list action) (r : robj X) : bool :=
  existsb (fun a => (q_id E (r_msg r) =? a_resp a) && lacks (r_bs r) (a_bcast a)) acts.

(** render_request_handler.rs l.178-206: a request with a single action has a
    response class without broadcasts ([MODULE_NO_CONCLUSION], l.121-159). *)
Definition many (acts : list action) : bool := Nat.ltb 1 (length acts).
Definition build (acts : list action) (x : X) (ops : list (list N * X)) : robj X :=
  if many acts then fold_left (add_broadcast acts) ops (mkRobj x []) else mkRobj x [].

(** render_event_emitter.rs l.65-79 [BROADCAST_IMPL]; [error] of [Output] (l.29-46) is
    [lacks] *)
Definition add_output (ds : list (N * bool)) (bs : list (list N * X)) (op : list N * X) : list (list N * X) :=
  if negb (existsb (fun d => fst d =? q_id E (snd op)) ds) then bs
  else if has_broadcast bs (q_id E (snd op)) then bs
  else bs ++ [op].

(** render_request_handlers_mod.rs l.17-44 [broadcastAll] and l.117-132
    [broadcast]: each message is packed and handed to the transport once for every
    uuid; [k] messages can be packed before one cannot ([None]: all can). *)
Definition broadcast_all (c : option nat) (bs : list (list N * X)) (k : option nat) : list qev :=
  flat_map (fun b => map (fun u => OBroad c u (snd b)) (fst b))
           (match k with None => bs | Some n => firstn n bs end).
Definition broken (bs : list (list N * X)) (k : option nat) : bool :=
  match k with None => false | Some n => Nat.ltb n (length bs) end.

(** The rejection of the promise of a handler, l.506-514 *)
Definition fail (s : qst) (t : nat) (j : task X) (c : kons) : qst * list qev :=
  (put_task s t (mkTask (j_obj j) (j_kind j) (j_num j) QDone),
   OFail t :: receiving_err (k_uuid c) (Some (j_obj j))).

(** l.245-445: one message of the queue of object [o] *)
Definition handle (s : qst) (o : nat) (c : kons) (h : header) (m : M) : qst * list qev :=
  let u := k_uuid c in
  if q_self E m && negb (k_hash c) then                       (* l.250-275 *)
    (put_obj s o (put_key c), [OKey o false; OSend ByLoop u (h_seq h) (PSelf u)])
  else match q_hash E m with
  | Some (p, w) =>                                            (* l.276-332 *)
    if ProducerModel.bytes_eqb p (q_proto E) && ProducerModel.bytes_eqb w (q_work E) then
      (put_obj s o (put_hash c), [OSend ByLoop u (h_seq h) (PHash true); OHash o])
    else (s, [OSend ByLoop u (h_seq h) (PHash false); OAsk u; OErr QHashes (Some o)])
  | None =>
    if negb (k_hash c) then (s, [OAsk u; OErr QNoHash (Some o)])          (* l.333-354 *)
    else if negb (k_key c) then (s, [OAsk u; OErr QNoKey (Some o)])       (* l.355-376 *)
    else if negb (assigned c) && negb (match q_is E with ProducerModel.IIgnore => true | _ => false end)
    then                                                                  (* l.377-424 *)
      (s, match q_is E with ProducerModel.IDisc | ProducerModel.IEmitDisc => [OAsk u] | _ => [] end ++
          match q_is E with ProducerModel.IEmit | ProducerModel.IEmitDisc => [OErr QNotAssigned (Some o)] | _ => [] end)
    else match q_for E m with
    | Some kind =>                                                        (* l.562-593 *)
      let t := p_tasks s in
      (mkQst (p_map s) (p_obj s) (p_objs s) (p_loop s)
             (updn (p_task s) t (Some (mkTask o kind (h_seq h) QRun))) (S t),
       [OStart t o h m])
    | None => (put_loop s None, receiving_err u (Some o))                 (* l.424-444 *)
    end
  end.

Definition fire (s : qst) (l : qlabel X) : option (qst * list qev) :=
  match l with
  | LConnected u =>                                           (* l.158-185 *)
    match p_loop s, p_map s u with
    | Some _, _ => None
    | None, Some _ => Some (s, [OErr QConnection None])
    | None, None =>
      let o := p_objs s in
      Some (mkQst (updk (p_map s) u (Some o))
                  (updn (p_obj s) o (Some (mkKons u false false false false (mkBuf [] []))))
                  (S o) None (p_task s) (p_tasks s),
            [OConnected u o])
    end
  | LDisconnected u =>                                        (* l.187-216 *)
    match p_map s u with
    | None => Some (s, [OErr QDisconnection None])
    | Some o => Some (mkQst (updk (p_map s) u None) (p_obj s) (p_objs s) (p_loop s) (p_task s) (p_tasks s),
                      [ODisconnected u o])
    end
  | LData u data fuel =>                                      (* l.218-244 *)
    match p_loop s with
    | Some _ => None
    | None =>
      match p_map s u with
      | None => Some (s, receiving_err u None)
      | Some o =>
        match p_obj s o with
        | None => None
        | Some c =>
          if k_disc c then Some (s, receiving_err u (Some o))
          else match ts_chunk (q_get E) (q_sig E) fuel (k_buf c) data with
          | None => None
          | Some (r, b) =>
            let s1 := put_obj s o (put_buf c b) in
            match r with
            | TReturned 0 => Some (put_loop s1 (Some o), [OChunk o data r])
            | TReturned _ => Some (s1, OChunk o data r :: receiving_err u (Some o))
            | TThrown => Some (s1, [OChunk o data r])
            end
          end
        end
      end
    end
  | LNext =>
    match p_loop s with
    | None => None
    | Some o =>
      match p_obj s o with
      | None => None
      | Some c =>
        match rb_queue (k_buf c) with
        | [] => Some (put_loop s None, [])                    (* l.246-249 *)
        | (h, m) :: q =>
          let c1 := put_buf c (mkBuf (rb_buf (k_buf c)) q) in
          let (s', es) := handle (put_obj s o c1) o c1 h m in
          Some (s', ORead o h m :: es)
        end
      end
    end
  | LKey o =>                                                 (* render_identification.rs l.43-52 *)
    match p_obj s o with Some c => Some (put_obj s o (put_key c), [OKey o true]) | None => None end
  | LAssign o =>                                              (* render_identification.rs l.54-62 *)
    match p_obj s o with Some c => Some (put_obj s o (put_assigned c), [OAssign o]) | None => None end
  | LDiscredit o =>                                           (* render_identification.rs l.84-86 *)
    match p_obj s o with Some c => Some (put_obj s o (put_disc c), [ODiscredit o]) | None => None end
  | LEnd t r =>                    (* render_request_handler.rs l.58-76, render_beacon_emitter.rs l.20-41 *)
    match p_loop s, p_task s t with
    | None, Some j =>
      match j_stage j, p_obj s (j_obj j) with
      | QRun, Some c =>
        let sent x bs p := (put_task s t (mkTask (j_obj j) (j_kind j) (j_num j) (QSent bs)),
                            x ++ [OSend (ByTask t) (k_uuid c) (j_num j) p]) in
        match r, j_kind j with
        | HReject, _ => Some (fail s t j c)
        | HAnswer _ _ _, (false, _) => Some (sent [] [] PConfirm)
        | HAnswer x ops packs, (true, r) =>
          let ro := build (q_req E r) x ops in
          if many (q_req E r) && response_error (q_req E r) ro then Some (fail s t j c)
          else if packs then Some (sent [OResult t x (r_bs ro)] (r_bs ro) (PAnswer x))
          else Some (fail s t j c)
        end
      | _, _ => None
      end
    | _, _ => None
    end
  | LSent t ok k =>                (* the promise of [send] is settled *)
    match p_loop s, p_task s t with
    | None, Some j =>
      match j_stage j, p_obj s (j_obj j) with
      | QSent bs, Some c =>
        if negb ok then Some (fail s t j c)
        else
          let es := broadcast_all (Some t) bs k in
          if broken bs k then
            let (s', fs) := fail s t j c in Some (s', es ++ fs)
          else Some (put_task s t (mkTask (j_obj j) (j_kind j) (j_num j) QLast), es)
      | _, _ => None
      end
    | _, _ => None
    end
  | LLast t ok =>                  (* scope.call(), which may throw; resolve() *)
    match p_loop s, p_task s t with
    | None, Some j =>
      match j_stage j, p_obj s (j_obj j) with
      | QLast, Some c =>
        if ok then Some (put_task s t (mkTask (j_obj j) (j_kind j) (j_num j) QDone), [ODeferred t])
        else let (s', fs) := fail s t j c in Some (s', ODeferred t :: fs)
      | _, _ => None
      end
    | _, _ => None
    end
  | LEvent e r k =>                (* render_event_emitter.rs l.80-124; l.516-520 [_checkErr] *)
    match p_loop s, r with
    | Some _, _ => None
    | None, None => Some (s, [OEventErr e])
    | None, Some ops =>
      let bs := fold_left (add_output (q_event E e)) ops [] in
      if lacks bs (q_event E e) then Some (s, [OEventErr e])
      else Some (s, broadcast_all None bs k ++ if broken bs k then [OEventErr e] else [])
    end
  end.

(** An execution, from [qinit]. *)
Inductive qrun : list (qlabel X) -> qst -> list qev -> Prop :=
| qrun_nil : qrun [] qinit []
| qrun_step ls s tr l s' es : qrun ls s tr -> fire s l = Some (s', es) ->
    qrun (ls ++ [l]) s' (tr ++ es).

Fixpoint qexec (s : qst) (ls : list (qlabel X)) (tr : list qev) : option (qst * list qev) :=
  match ls with
  | [] => Some (s, tr)
  | l :: ls => match fire s l with
               | Some (s', es) => qexec s' ls (tr ++ es)
               | None => None
               end
  end.

Lemma qexec_qrun ls : forall l0 s tr s' tr', qrun l0 s tr ->
  qexec s ls tr = Some (s', tr') -> qrun (l0 ++ ls) s' tr'.
Proof.
  induction ls as [|l ls IH]; intros l0 s tr s' tr' R H; cbn [qexec] in H.
  - injection H as <- <-. rewrite app_nil_r. exact R.
  - destruct (fire s l) as [[s1 es]|] eqn:F; [|discriminate H].
    replace (l0 ++ l :: ls) with ((l0 ++ [l]) ++ ls) by (rewrite <- app_assoc; reflexivity).
    eapply IH; [|exact H]. econstructor; eassumption.
Qed.

End Server.
