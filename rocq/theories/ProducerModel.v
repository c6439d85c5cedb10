(** Model of a generated Rust producer (server side):
    cli/src/workflow/render/producer/rust/render_mod.rs (template [MODULE],
    l.10-936, and [REQUEST], [BEACON], [EVENT] l.937-999), render_consumer.rs,
    render_identification.rs, render_request_handler.rs,
    render_event_emitter.rs, render_beacon_emitter.rs and
    static/implementation/{emitters,scope}.

    Everything that is not generated code (the user's handlers, the transport
    server, the clock used for packing) is the record [env]: arbitrary functions
    on an arbitrary world [e_world].  What a handler does on its own account
    (calling [scope.control], changing the context) happens inside the world; the
    trace records what the generated code does.  Logging is left out. *)
From Coq Require Import List NArith Bool.
From Coq Require Import Strings.Byte.
From Verif Require Import Bytes WireModel FrameModel.
Import ListNotations.
Open Scope N_scope.

Definition uuid := N.

(** A self key or assigned key: the fields of the struct; a field declared
    optional may be absent ([None]). *)
Definition key := list (option bytes).

(** render_mod.rs l.102-114, l.116-126 *)
Inductive istrategy := ILog | IEmit | IDisc | IEmitDisc | IIgnore.
Inductive cstrategy := SEmit | SDisc | SEmitDisc | SLog.

(** render_mod.rs l.40-72 [ProducerError], texts left out *)
Inductive perr :=
| EServer | EEmitter | EBeaconEmitter | EConnection | EConsumer | ENotConfirmed
| EResponsing | EChannel | ENoKey (u : uuid) | ENoAssigned (u : uuid) | EAddConsumer (u : uuid)
| EProtocol (u : uuid).

(** Declarations of the workflow file as far as they shape the generated code:
    a request is the list of its actions, an action (or an event) the list of
    its broadcasts, a broadcast is whether it is optional. *)
Definition bdecls := list bool.
Definition rdecl := list bdecls.

(** Messages the generated code sends; [X] are the user's messages.  [PAnswer]
    is a request's response or error, [PBroadcast] a broadcast. *)
Inductive payload (X : Type) :=
| PSelf (u : uuid) | PHash (valid : bool) | PConfirm | PBeacon
| PAnswer (x : X) | PBroadcast (x : X).
Arguments PSelf {X}. Arguments PHash {X}. Arguments PConfirm {X}.
Arguments PBeacon {X}. Arguments PAnswer {X}. Arguments PBroadcast {X}.

(** What a user's request handler returns: the error struct, or the [i]-th
    action with its response and, for each declared broadcast, receivers and
    message ([None] for an optional broadcast left out). *)
Definition bcast X := option (list uuid * X).
Inductive hres (X : Type) :=
| HErr (x : X)
| HAct (i : nat) (resp : X) (bs : list (bcast X)).
Arguments HErr {X}. Arguments HAct {X}.

(** render_identification.rs l.65-73 [Identification] as seen by handlers *)
Record ident := mkIdent {
  i_uuid : uuid; i_key : option key; i_assigned : option key; i_disc : bool
}.

(** The world around the generated code. *)
Record env := mkEnv {
  e_world : Type;
  e_msg : Type;          (* protocol::AvailableMessages *)
  e_user : Type;         (* messages sent by handlers *)
  e_get : N -> bytes -> res e_msg err;         (* AvailableMessages::get_msg *)
  e_sig : N;
  e_self : e_msg -> option key;                (* the SelfKey struct *)
  e_hash : e_msg -> option (bytes * bytes);    (* InternalServiceGroup.HashRequest *)
  e_request : e_msg -> option nat;             (* which declared request *)
  e_beacon : e_msg -> option nat;              (* which declared beacon *)
  e_requests : nat -> rdecl;
  e_events : nat -> bdecls;
  e_connected : bdecls;
  e_disconnected : bdecls;
  e_self_opt : list bool;                      (* optional fields of the self key *)
  e_assigned_opt : list bool;
  e_phash : bytes; e_whash : bytes;            (* hash::PROTOCOL, hash::WORKFLOW *)
  e_is : istrategy; e_cs : cstrategy;          (* Options *)
  (* the server and the clock *)
  w_pack : e_world -> payload e_user -> e_world * bool;
  w_send : e_world -> uuid -> N -> payload e_user -> e_world * bool;
  w_disconnect : e_world -> uuid -> e_world * bool;
  (* the user's handlers *)
  w_request : e_world -> nat -> ident -> list ident -> e_msg -> e_world * hres e_user;
  w_beacon : e_world -> nat -> ident -> list ident -> e_msg -> e_world * bool;
  w_event : e_world -> nat -> list ident -> e_world * option (list (bcast e_user));
  w_connected : e_world -> ident -> list ident -> e_world * option (list (bcast e_user));
  w_disconnected : e_world -> ident -> list ident -> e_world * option (list (bcast e_user));
  w_error : e_world -> perr -> option uuid -> option ident -> e_world * bool;
  w_ready : e_world -> e_world * bool;
  w_deferred : e_world -> e_world              (* scope.call() *)
}.

(** render_identification.rs l.201-247 and l.159-162: merging a key into an
    existing one. *)
Fixpoint merge (opt : list bool) (old new : key) : key :=
  match opt, old, new with
  | o :: opt, a :: old, b :: new =>
    (if o then match b with Some _ => b | None => a end else b) :: merge opt old new
  | _, _, _ => []
  end.

(** How a piece of code ends: normally, with [Err] (which ends the listener), or
    by a panic of the task. *)
Inductive pres (A : Type) := PGo (a : A) | PStop (e : perr) | PPanic.
Arguments PGo {A}. Arguments PStop {A}. Arguments PPanic {A}.

Section Producer.
Variable E : env.

Let W := e_world E.
Let M := e_msg E.
Let X := e_user E.

(** render_consumer.rs l.25-31 [Consumer] together with its [Identification] *)
Record consumer := mkConsumer {
  c_buf : rbuf M; c_key : option key; c_assigned : option key;
  c_disc : bool; c_hash : bool; c_conf : bool
}.

(** render_consumer.rs l.34-46, render_identification.rs l.76-89 *)
Definition consumer_new : consumer := mkConsumer rbuf_new None None false false false.

(** [HashMap<Uuid, Consumer>]; its iteration order is unspecified. *)
Definition table := list (uuid * consumer).

Fixpoint find (u : uuid) (t : table) : option consumer :=
  match t with
  | [] => None
  | (v, c) :: t => if u =? v then Some c else find u t
  end.

(** write access through [get_mut] *)
Fixpoint put (u : uuid) (c : consumer) (t : table) : table :=
  match t with
  | [] => []
  | (v, d) :: t => if u =? v then (v, c) :: t else (v, d) :: put u c t
  end.

Fixpoint drop (u : uuid) (t : table) : table :=
  match t with
  | [] => []
  | (v, d) :: t => if u =? v then t else (v, d) :: drop u t
  end.

Definition ident_of (u : uuid) (c : consumer) : ident :=
  mkIdent u (c_key c) (c_assigned c) (c_disc c).

Definition idents (t : table) : list ident := map (fun uc => ident_of (fst uc) (snd uc)) t.

(** render_identification.rs l.27-33, l.35-41, l.43-45, l.47-56 *)
Definition f_exclude (t : table) (us : list uuid) : list uuid :=
  filter (fun u => negb (existsb (fun v => v =? u) us)) (map fst t).
Definition f_except (t : table) (u : uuid) : list uuid :=
  filter (fun v => negb (v =? u)) (map fst t).
Definition f_all (t : table) : list uuid := map fst t.
Definition f_filter (t : table) (cb : ident -> bool) : list uuid :=
  map i_uuid (filter cb (idents t)).

(** render_identification.rs l.113-119, l.121-127 *)
Definition set_key (k : key) (ov : bool) (c : consumer) : consumer :=
  let k' := match c_key c with
            | Some old => if ov then k else merge (e_self_opt E) old k
            | None => k
            end in
  mkConsumer (c_buf c) (Some k') (c_assigned c) (c_disc c) (c_hash c) (c_conf c).
Definition set_assigned (k : key) (ov : bool) (c : consumer) : consumer :=
  let k' := match c_assigned c with
            | Some old => if ov then k else merge (e_assigned_opt E) old k
            | None => k
            end in
  mkConsumer (c_buf c) (c_key c) (Some k') (c_disc c) (c_hash c) (c_conf c).

Definition set_buf (b : rbuf M) (c : consumer) : consumer :=
  mkConsumer b (c_key c) (c_assigned c) (c_disc c) (c_hash c) (c_conf c).
Definition set_disc (c : consumer) : consumer :=
  mkConsumer (c_buf c) (c_key c) (c_assigned c) true (c_hash c) (c_conf c).
Definition set_hash (c : consumer) : consumer :=
  mkConsumer (c_buf c) (c_key c) (c_assigned c) (c_disc c) true (c_conf c).
Definition set_conf (c : consumer) : consumer :=
  mkConsumer (c_buf c) (c_key c) (c_assigned c) (c_disc c) (c_hash c) true.

(** render_identification.rs l.129-145 [assigned] *)
Definition is_assigned (c : consumer) : bool :=
  match c_assigned c with
  | Some _ => true
  | None => match e_is E with IIgnore | ILog => true | _ => false end
  end.

(** render_identification.rs l.147-149 [has_key] *)
Definition has_key (c : consumer) : bool :=
  match c_key c with Some _ => true | None => false end.

(** What the generated code does, in order.  [OHandle] marks the start of an
    iteration of the loop render_mod.rs l.441-649; [OUnpacked] marks a message
    that could not be packed (nothing is sent).  The calls of the user's handlers
    carry the consumers the handler was shown and what it returned; the last argument of [OSend] and
    [ODisc] is the server's answer. *)
Inductive out :=
| OConnected (u : uuid) (ids : list ident) (bs : option (list (bcast X)))
| ODisconnected (u : uuid) (ids : list ident) (bs : option (list (bcast X)))
| OHandle (u : uuid) (h : header) (m : M)
| OCall (u : uuid) (r : nat) (m : M) (ids : list ident) (res : hres X)
| OBeacon (u : uuid) (b : nat) (m : M) (ids : list ident) (ok : bool)
| OSend (u : uuid) (seq : N) (p : payload X) (ok : bool)
| OUnpacked (u : option uuid) (seq : N) (p : payload X)
| ODisc (u : uuid) (ok : bool)
| OError (e : perr) (u : option uuid)
| OSetKey (u : uuid) | OSetAssigned (u : uuid)
| OEvent (n : nat) (ids : list ident) (bs : option (list (bcast X)))
| OReady | ODeferred.

(** The listener's variables: the context and server (world), [consumers], and
    the content of the confirmation channel. *)
Record st := mkSt { s_w : W; s_tab : table; s_conf : list uuid }.

Definition P (A : Type) := st -> list out * (st * pres A).

Definition ret {A} (a : A) : P A := fun s => ([], (s, PGo a)).
Definition stop {A} (e : perr) : P A := fun s => ([], (s, PStop e)).
Definition panic {A} : P A := fun s => ([], (s, PPanic)).
Definition emit (o : out) : P unit := fun s => ([o], (s, PGo tt)).
Definition bindp {A B} (m : P A) (f : A -> P B) : P B := fun s =>
  let '(t, (s1, r)) := m s in
  match r with
  | PGo a => let '(t2, x) := f a s1 in (t ++ t2, x)
  | PStop e => (t, (s1, PStop e))
  | PPanic => (t, (s1, PPanic))
  end.
Notation "'let*' x ':=' e 'in' f" := (bindp e (fun x => f))
  (at level 200, x pattern, e at level 100, f at level 200).
Notation "e ';;' f" := (bindp e (fun _ => f)) (at level 199, right associativity).

(** a call into the world *)
Definition world {A} (f : W -> W * A) : P A := fun s =>
  let '(w, a) := f (s_w s) in ([], (mkSt w (s_tab s) (s_conf s), PGo a)).
Definition get_tab : P table := fun s => ([], (s, PGo (s_tab s))).
Definition look (u : uuid) : P (option consumer) := fun s => ([], (s, PGo (find u (s_tab s)))).
Definition upd (u : uuid) (f : consumer -> consumer) : P unit := fun s =>
  match find u (s_tab s) with
  | Some c => ([], (mkSt (s_w s) (put u (f c) (s_tab s)) (s_conf s), PGo tt))
  | None => ([], (s, PGo tt))
  end.

(** [msg.pack(sequence, uuid)] *)
Definition try_pack (u : option uuid) (seq : N) (p : payload X) : P bool :=
  let* ok := world (fun w => w_pack E w p) in
  if ok then ret true else (emit (OUnpacked u seq p) ;; ret false).

(** render_mod.rs l.210-219 [Control::send] to one consumer *)
Definition send (u : uuid) (seq : N) (p : payload X) : P bool :=
  let* ok := world (fun w => w_send E w u seq p) in
  emit (OSend u seq p ok) ;; ret ok.

Definition pack_send (u : uuid) (seq : N) (p : payload X) : P bool :=
  let* ok := try_pack (Some u) seq p in
  if ok then send u seq p else ret false.

(** render_mod.rs l.221-235 [Control::broadcast]: failures are only logged *)
Fixpoint broadcast (us : list uuid) (x : X) : P unit :=
  match us with
  | [] => ret tt
  | u :: us => let* _ := send u 0 (PBroadcast x) in broadcast us x
  end.

Fixpoint broadcast_all (l : list (list uuid * X)) : P unit :=
  match l with
  | [] => ret tt
  | (us, x) :: l => broadcast us x ;; broadcast_all l
  end.

(** static/implementation/emitters/error.rs; its failure ends the listener
    (every caller maps it with [?]) *)
Definition emit_error (e : perr) (u : option uuid) (i : option ident) : P unit :=
  let* ok := world (fun w => w_error E w e u i) in
  emit (OError e u) ;;
  if ok then ret tt else stop EEmitter.

(** render_mod.rs l.318-329 [disconnect]; [u] is in the table at every call *)
Definition disconnect (u : uuid) : P unit :=
  let* c := look u in
  match c with
  | None => ret tt
  | Some c =>
    if c_disc c then ret tt
    else
      upd u set_disc ;;
      let* ok := world (fun w => w_disconnect E w u) in
      emit (ODisc u ok) ;;
      if ok then ret tt else stop EServer
  end.

Definition ident_at (u : uuid) : P (option ident) :=
  let* c := look u in
  ret (match c with Some c => Some (ident_of u c) | None => None end).

(** [disconnect] followed by [emitters::error::emit], as in l.393-402, l.557-566,
    l.575-584, l.590-599 *)
Definition expel (u : uuid) (e : perr) : P unit :=
  disconnect u ;;
  let* i := ident_at u in
  emit_error e (Some u) i.

(** render_mod.rs l.331-376 [responsing_err]; whether the consumer exists is
    looked up (the callers pass [consumers.get_mut(&uuid)] or [None] when it is
    absent) *)
Definition responsing_err (u : uuid) : P unit :=
  match e_cs E with SDisc | SEmitDisc => disconnect u | _ => ret tt end ;;
  match e_cs E with
  | SEmit | SEmitDisc => let* i := ident_at u in emit_error EResponsing (Some u) i
  | _ => ret tt
  end.

(** The broadcasts a handler returned, taken in the order of their declarations:
    render_request_handler.rs l.140-188, render_event_emitter.rs l.143-183.  The
    type of a non-optional broadcast does not allow [None]. *)
Fixpoint declared (ds : bdecls) (bs : list (bcast X)) : list (list uuid * X) :=
  match ds, bs with
  | _ :: ds, Some b :: bs => b :: declared ds bs
  | _ :: ds, None :: bs => declared ds bs
  | _, _ => []
  end.

(** packing of the broadcasts; [None] when one cannot be packed (the [?]) *)
Fixpoint pack_all (u : option uuid) (l : list (list uuid * X)) : P bool :=
  match l with
  | [] => ret true
  | (us, x) :: l =>
    let* ok := try_pack u 0 (PBroadcast x) in
    if ok then pack_all u l else ret false
  end.

Definition deferred : P unit :=
  let* _ := world (fun w => (w_deferred E w, tt)) in emit ODeferred.

(** render_request_handler.rs: [MODULE_WITH_CONCLUSION] l.8-44 for more than one
    action, [MODULE_NO_CONCLUSION] l.55-84 otherwise (l.103-112); [false] is
    [Err(HandlerError)]. *)
Definition process_request (u : uuid) (r : nat) (i : ident) (seq : N) (m : M) : P bool :=
  let* t := get_tab in
  let* res := world (fun w => w_request E w r i (idents t) m) in
  emit (OCall u r m (idents t) res) ;;
  let* todo :=
    match res with
    | HErr x => ret (Some (x, []))
    | HAct n x bs =>
      if Nat.ltb 1 (length (e_requests E r)) then
        let l := declared (nth n (e_requests E r) []) bs in
        let* ok := pack_all (Some u) l in
        ret (if ok then Some (x, l) else None)
      else ret (Some (x, []))
    end in
  match todo with
  | None => ret false
  | Some (x, l) =>
    let* ok := pack_send u seq (PAnswer x) in
    if ok then (broadcast_all l ;; deferred ;; ret true) else ret false
  end.

(** render_beacon_emitter.rs l.8-34 *)
Definition process_beacon (u : uuid) (b : nat) (i : ident) (seq : N) (m : M) : P bool :=
  let* t := get_tab in
  let* ok := world (fun w => w_beacon E w b i (idents t) m) in
  emit (OBeacon u b m (idents t) ok) ;;
  if ok then
    let* ok := pack_send u seq PBeacon in
    if ok then (deferred ;; ret true) else ret false
  else ret false.

(** render_event_emitter.rs l.10-101: the user's event handler, then the declared
    broadcasts; [false] is [Err(EmitterError)] *)
Definition emit_event (ds : bdecls) (bs : option (list (bcast X))) : P bool :=
  match bs with
  | None => ret false
  | Some bs =>
    let l := declared ds bs in
    let* ok := pack_all None l in
    if ok then (broadcast_all l ;; deferred ;; ret true) else ret false
  end.

(** render_mod.rs l.238-278 [add_connection]; the confirmation channel cannot be
    closed while the listener runs *)
Definition add_connection (u : uuid) : P unit :=
  let* c := look u in
  match c with
  | Some _ => stop (EAddConsumer u)
  | None =>
    let* t := get_tab in
    let* bs := world (fun w => w_connected E w (ident_of u consumer_new) (idents t)) in
    emit (OConnected u (idents t) bs) ;;
    let* _ := emit_event (e_connected E) bs in
    (fun s => ([], (mkSt (s_w s) ((u, consumer_new) :: s_tab s) (s_conf s ++ [u]), PGo tt)))
  end.

(** render_mod.rs l.280-316 [remove_connection] *)
Definition remove_connection (u : uuid) : P unit :=
  let* c := look u in
  match c with
  | None => ret tt
  | Some c =>
    (fun s => ([], (mkSt (s_w s) (drop u (s_tab s)) (s_conf s), PGo tt))) ;;
    let* t := get_tab in
    let* bs := world (fun w => w_disconnected E w (ident_of u c) (idents t)) in
    emit (ODisconnected u (idents t) bs) ;;
    let* _ := emit_event (e_disconnected E) bs in
    ret tt
  end.

Fixpoint bytes_eqb (a b : bytes) : bool :=
  match a, b with
  | [], [] => true
  | x :: a, y :: b => Byte.eqb x y && bytes_eqb a b
  | _, _ => false
  end.

(** render_mod.rs l.497-523 *)
Definition hash_valid (pw : bytes * bytes) : bool :=
  bytes_eqb (fst pw) (e_phash E) && bytes_eqb (snd pw) (e_whash E).

(** render_mod.rs l.641-645 with [REQUEST] l.937-958 and [BEACON] l.959-984 *)
Definition dispatch (u : uuid) (c : consumer) (h : header) (m : M) : P unit :=
  match e_request E m with
  | Some r =>
    let* ok := process_request u r (ident_of u c) (h_seq h) m in
    if ok then ret tt else responsing_err u
  | None =>
    match e_beacon E m with
    | Some b =>
      let* ok := process_beacon u b (ident_of u c) (h_seq h) m in
      if ok then ret tt else emit_error EBeaconEmitter (Some u) (Some (ident_of u c))
    | None => ret tt
    end
  end.

(** render_mod.rs l.600-633: the consumer is not assigned *)
Definition not_assigned (u : uuid) : P unit :=
  match e_is E with IDisc | IEmitDisc => disconnect u | _ => ret tt end ;;
  match e_is E with
  | IEmit | IEmitDisc => let* i := ident_at u in emit_error (ENoAssigned u) (Some u) i
  | _ => ret tt
  end.

(** render_mod.rs l.447-648: one message; [asg] and [hk] are the values of
    [assigned] and [has_key] taken before the loop (l.420-424) *)
Definition handle (u : uuid) (asg hk : bool) (h : header) (m : M) (c : consumer) : P unit :=
  let other :=
    match e_hash E m with
    | Some pw =>
      let valid := hash_valid pw in
      (if valid then upd u set_hash else ret tt) ;;
      let* ok := pack_send u (h_seq h) (PHash valid) in
      (if ok then ret tt else responsing_err u) ;;
      if valid then ret tt else expel u (ENoKey u)
    | None =>
      if negb (c_hash c) then expel u (ENoKey u)
      else if negb hk then expel u (ENoKey u)
      else if negb asg && match e_is E with IIgnore => false | _ => true end then not_assigned u
      else dispatch u c h m
    end in
  match e_self E m with
  | Some k =>
    if c_hash c then other
    else
      upd u (set_key k true) ;;
      let* ok := pack_send u (h_seq h) (PSelf u) in
      if ok then ret tt else responsing_err u
  | None => other
  end.

(** render_mod.rs l.441-649 *)
Fixpoint loop (u : uuid) (asg hk : bool) (ms : list (header * M)) : P unit :=
  match ms with
  | [] => ret tt
  | (h, m) :: ms =>
    let* c := look u in
    match c with
    | None => ret tt
    | Some c => emit (OHandle u h m) ;; handle u asg hk h m c ;; loop u asg hk ms
    end
  end.

(** render_mod.rs l.378-651 [process_received_data].  [consumer.get_messages()]
    (render_consumer.rs l.93-99) empties the queue of the buffer.  A panic while
    decoding ends the task. *)
Definition process_received_data (u : uuid) (data : bytes) : P unit :=
  let* c := look u in
  match c with
  | None => responsing_err u
  | Some c =>
    if negb (c_conf c) then expel u ENotConfirmed
    else if c_disc c then ret tt
    else
      let '(o, b) := chunk (e_get E) (e_sig E) (c_buf c) data in
      match o with
      | CPanic => panic
      | CErr _ => upd u (set_buf b) ;; responsing_err u
      | COk =>
        upd u (set_buf (mkBuf (rb_buf b) [])) ;;
        loop u (is_assigned c) (has_key c) (rb_queue b)
      end
  end.

(** What arrives at the [select!] of the listener (l.669-683).  [VKey] and
    [VAssign] come from the identification channel, into which the application
    may write at any time; [VConfirm] is the confirmation channel. *)
Inductive event :=
| VReady | VShutdown | VConnected (u : uuid) | VDisconnected (u : uuid)
| VReceived (u : uuid) (data : bytes)
| VError (u : option uuid) | VConnectionError (u : option uuid) | VServerError
| VUser (n : nat)
| VKey (u : uuid) (k : key) (ov : bool) | VAssign (u : uuid) (k : key) (ov : bool)
| VConfirm | VCancel.

Definition opt_ident (u : option uuid) : P (option ident) :=
  match u with Some u => ident_at u | None => ret None end.

(** render_mod.rs l.806-831: the head of the confirmation channel.  An event
    [VConfirm] with an empty channel cannot happen; it does nothing here. *)
Definition confirm : P unit := fun s =>
  match s_conf s with
  | [] => ([], (s, PGo tt))
  | u :: q =>
    (let* c := look u in
     match c with
     | Some _ =>
       upd u set_conf ;;
       let* ok := try_pack (Some u) 0 PConfirm in
       if ok then
         (let* ok := send u 0 PConfirm in if ok then ret tt else stop EServer)
       else stop (EProtocol u)
     | None => emit_error EConsumer (Some u) None
     end) (mkSt (s_w s) (s_tab s) q)
  end.

(** render_mod.rs l.684-832: one turn of the listener; [false] is [break] *)
Definition step (e : event) : P bool :=
  match e with
  | VReady =>
    let* ok := world (w_ready E) in
    emit OReady ;; if ok then ret true else stop EEmitter
  | VShutdown | VCancel => ret false
  | VConnected u => add_connection u ;; ret true
  | VDisconnected u => remove_connection u ;; ret true
  | VReceived u data => process_received_data u data ;; ret true
  | VError u => let* i := opt_ident u in emit_error EConsumer u i ;; ret true
  | VConnectionError u => let* i := opt_ident u in emit_error EConnection u i ;; ret true
  | VServerError => emit_error EServer None None ;; ret true
  | VUser n =>
    let* t := get_tab in
    let* bs := world (fun w => w_event E w n (idents t)) in
    emit (OEvent n (idents t) bs) ;;
    let* _ := emit_event (e_events E n) bs in ret true
  | VKey u k ov =>
    let* c := look u in
    match c with
    | Some _ => upd u (set_key k ov) ;; emit (OSetKey u) ;; ret true
    | None => emit_error EConsumer (Some u) None ;; ret true
    end
  | VAssign u k ov =>
    let* c := look u in
    match c with
    | Some _ => upd u (set_assigned k ov) ;; emit (OSetAssigned u) ;; ret true
    | None => emit_error EConsumer (Some u) None ;; ret true
    end
  | VConfirm => confirm ;; ret true
  end.

(** render_mod.rs l.668-835: the loop of the listener over the events in the
    order in which [select!] picks them *)
Fixpoint listen (es : list event) : P bool :=
  match es with
  | [] => ret true
  | e :: es => let* go := step e in if go then listen es else ret false
  end.

Definition start (w : W) : st := mkSt w [] [].

End Producer.
