(** A generated TypeScript producer and one of its generated TypeScript consumers,
    connected by a transport: the producer of TsServerModel.v
    (cli/src/workflow/render/producer/typescript/render_mod.rs l.158-520) and the
    consumer of TsClientModel.v
    (cli/src/workflow/render/consumer/typescript/render_consumer.rs l.70-262) run
    concurrently; between them are two byte streams.

    Simplifications.  The transport (empty submodules in /repo) does not change or
    reorder bytes; it may hold them back and cut them into chunks in any way, but it
    delivers no empty chunk to the producer.  It may refuse a message of the producer
    (the promise of [send] is rejected), which then is lost as a whole.  The uuid of
    the connection is not that of an earlier one, and the connection is not closed.
    Everything else is arbitrary: other consumers, the functions of the application on
    both sides, failures of packing and sending, the order of continuations. *)
From Coq Require Import List NArith Bool.
From Verif Require Import Bytes WireModel FrameModel FrameProofs TsModel.
From Verif Require TsClientModel TsServerModel TsServerTrace.
Import ListNotations.
Open Scope N_scope.

Section System.
Variable QE : TsServerModel.qenv.
Variable CE : TsClientModel.tenv.
Local Notation X := (TsServerModel.q_out QE).
Local Notation qev := (TsServerModel.qev (TsServerModel.q_msg QE) X).
Local Notation tev := (TsClientModel.tev (TsClientModel.t_msg CE)).

(** What the generated encoders make of a message: its id and body.  The packing
    (protocol.packing.ts) adds the header.  [z_msg a w] is the message that promise
    [a] of the consumer, which is for [w], sends.  [z_reqs] and [z_beacons] tell how
    many requests and beacons the workflow declares; [z_text] writes a uuid. *)
Record codec := mkCodec {
  z_msg : nat -> TsClientModel.what -> N * bytes;
  z_pay : TsServerModel.qpay X -> N * bytes;
  z_reqs : nat; z_beacons : nat;
  z_text : N -> bytes
}.
Variable K : codec.

(** There is a class for it. *)
Definition declared (w : TsClientModel.what) : Prop :=
  match w with
  | TsClientModel.WReq r _ => (r < z_reqs K)%nat
  | TsClientModel.WBeacon b _ => (b < z_beacons K)%nat
  | _ => True
  end.

(** The packet of a message; [ts] is the clock. *)
Definition frame (sig : N) (ib : N * bytes) (n ts : N) : packet :=
  mkPacket (fst ib) sig (n mod 2 ^ 32) (ts mod 2 ^ 64) (snd ib).

(** The promises whose message the transport of the consumer has accepted, with
    the number (render_consumer.rs l.152-166). *)
Definition sent_up (t : list tev) : list (nat * N) :=
  flat_map (fun e => match e with TsClientModel.VNum a n TsClientModel.SOk => [(a, n)] | _ => [] end) t.

(** What the producer has handed to the transport for [u]; a broadcast carries
    number 0 (render_request_handlers_mod.rs l.117-132). *)
Definition handed (u : N) (t : list qev) : list (N * TsServerModel.qpay X) :=
  flat_map (fun e => match e with
                     | TsServerModel.OSend _ v n p => if v =? u then [(n, p)] else []
                     | TsServerModel.OBroad _ v x => if v =? u then [(0, TsServerModel.PAnswer x)] else []
                     | _ => []
                     end) t.

(** [qs] are packets of these messages, packed at any time. *)
Definition up_packets (t : list tev) (qs : list packet) : Prop :=
  Forall2 (fun an q => exists w ts, In (TsClientModel.VCall (fst an) w) t /\ declared w /\
             q = frame (TsClientModel.t_sig CE) (z_msg K (fst an) w) (snd an) ts) (sent_up t) qs.

(** [passed ms lost qs]: of the messages [ms], [lost] are refused by the transport;
    [qs] are packets of the others. *)
Inductive passed : list (N * TsServerModel.qpay X) -> list (N * TsServerModel.qpay X) -> list packet -> Prop :=
| passed_nil : passed [] [] []
| passed_on n p ts ms lost qs : passed ms lost qs ->
    passed ((n, p) :: ms) lost (frame (TsServerModel.q_sig QE) (z_pay K p) n ts :: qs)
| passed_lost n p ms lost qs : passed ms lost qs -> passed ((n, p) :: ms) ((n, p) :: lost) qs.

(** Both sides were generated from the same protocol and the same workflow: they
    agree on the signature and the hashes, and each understands what the other
    sends.  That the codecs of a generated protocol agree is C44. *)
Record compatible : Prop := {
  z_sig : TsServerModel.q_sig QE = TsClientModel.t_sig CE;
  z_sig16 : TsClientModel.t_sig CE < 2 ^ 16;
  z_up : forall a w, declared w -> fst (z_msg K a w) < 2 ^ 32 /\ blen (snd (z_msg K a w)) + 26 < 2 ^ 64 /\
    exists m, TsServerModel.q_get QE (fst (z_msg K a w)) (snd (z_msg K a w)) = Ok m /\
      match w with
      | TsClientModel.WAssign _ => TsServerModel.q_self QE m = true /\ TsServerModel.q_hash QE m = None /\ TsServerModel.q_for QE m = None
      | TsClientModel.WHash _ => TsServerModel.q_self QE m = false /\
          TsServerModel.q_hash QE m = Some (TsServerModel.q_proto QE, TsServerModel.q_work QE)
      | TsClientModel.WReq r _ => TsServerModel.q_self QE m = false /\ TsServerModel.q_hash QE m = None /\
          TsServerModel.q_for QE m = Some (true, r)
      | TsClientModel.WBeacon b _ => TsServerModel.q_self QE m = false /\ TsServerModel.q_hash QE m = None /\
          TsServerModel.q_for QE m = Some (false, b)
      end;
  z_down : forall p, fst (z_pay K p) < 2 ^ 32 /\ blen (snd (z_pay K p)) + 26 < 2 ^ 64 /\
    exists m, TsClientModel.t_get CE (fst (z_pay K p)) (snd (z_pay K p)) = Ok m /\
      match p with
      | TsServerModel.PSelf u => TsClientModel.t_self CE m = Some (z_text K u) /\ TsClientModel.t_blank CE (z_text K u) = false
      | TsServerModel.PHash b => exists e, TsClientModel.t_hash CE m = Some e /\ (e = None <-> b = true)
      | TsServerModel.PConfirm => TsClientModel.t_beacon CE m = Some None
      | TsServerModel.PAnswer _ => True
      end
}.

(** The state: the producer, its schedule and what it has done; the consumer, its
    schedule and what it has done; the bytes under way; the messages that the
    producer's transport has refused; the messages (with their numbers) that the
    server's application has sent of its own accord. *)
Record tsys := mkTsys {
  z_q : TsServerModel.qst (TsServerModel.q_msg QE) X; z_ql : list (TsServerModel.qlabel X); z_qt : list qev;
  z_c : TsClientModel.tst (TsClientModel.t_msg CE); z_cl : list TsClientModel.label; z_ct : list tev;
  z_ups : bytes; z_downs : bytes; z_lost : list (N * TsServerModel.qpay X); z_app : list (N * X)
}.

(** render_mod.rs l.158-185: the producer has accepted the connection of [u], which
    becomes object [o]. *)
Definition fresh (u : N) (o : nat) (z : tsys) : Prop :=
  exists ls s tr,
    TsServerModel.qrun QE ls s tr /\ (forall v, ~ In (TsServerModel.OConnected u v) tr) /\
    TsServerModel.fire QE s (TsServerModel.LConnected u) = Some (z_q z, [TsServerModel.OConnected u o]) /\
    z_ql z = ls ++ [TsServerModel.LConnected u] /\ z_qt z = tr ++ [TsServerModel.OConnected u o] /\
    z_c z = TsClientModel.tinit /\ z_cl z = [] /\ z_ct z = [] /\ z_ups z = [] /\ z_downs z = [] /\ z_lost z = [] /\ z_app z = [].

(** Steps of the producer that do not come from the connection to [u]. *)
Definition apart (u : N) (l : TsServerModel.qlabel X) : Prop :=
  match l with
  | TsServerModel.LConnected v | TsServerModel.LDisconnected v | TsServerModel.LData v _ _ => v <> u
  | _ => True
  end.

(** Steps of the consumer that do not come from the connection; the transport tells
    once that it is connected. *)
Definition own_step (t : list tev) (l : TsClientModel.label) : Prop :=
  match l with
  | TsClientModel.LData _ _ | TsClientModel.LDisconnected => False
  | TsClientModel.LConnected _ _ => ~ In TsClientModel.VConnected t
  | _ => True
  end.

(** The application of the consumer keeps to the protocol: it calls after it has
    been told that the consumer is ready, and it leaves [assign] to the consumer. *)
Definition patient (t : list tev) (l : TsClientModel.label) : Prop :=
  match l with
  | TsClientModel.LSend _ _ _ => exists u, In (TsClientModel.VReady u) t
  | TsClientModel.LAssign _ _ => False
  | _ => True
  end.

(** One step; [A] says which steps the consumer's application may make. *)
Inductive move (A : list tev -> TsClientModel.label -> Prop) (u : N) : tsys -> tsys -> Prop :=
(** one step of the producer *)
| Z_server z l s' es lost qs :
    apart u l -> TsServerModel.fire QE (z_q z) l = Some (s', es) -> passed (handed u es) lost qs ->
    move A u z (mkTsys s' (z_ql z ++ [l]) (z_qt z ++ es) (z_c z) (z_cl z) (z_ct z)
                       (z_ups z) (z_downs z ++ stream qs) (z_lost z ++ lost) (z_app z))
(** a chunk reaches the producer *)
| Z_receive z n fuel s' es lost qs :
    let l := TsServerModel.LData u (firstn n (z_ups z)) fuel in
    (0 < n <= length (z_ups z))%nat ->
    TsServerModel.fire QE (z_q z) l = Some (s', es) -> passed (handed u es) lost qs ->
    move A u z (mkTsys s' (z_ql z ++ [l]) (z_qt z ++ es) (z_c z) (z_cl z) (z_ct z)
                       (skipn n (z_ups z)) (z_downs z ++ stream qs) (z_lost z ++ lost) (z_app z))
(** the server's application sends a message of its own: [send] and [broadcast] of
    the producer, render_mod.rs l.113-132, with the number it has packed it with *)
| Z_control z n x lost qs :
    passed [(n, TsServerModel.PAnswer x)] lost qs ->
    move A u z (mkTsys (z_q z) (z_ql z) (z_qt z) (z_c z) (z_cl z) (z_ct z)
                       (z_ups z) (z_downs z ++ stream qs) (z_lost z ++ lost) (z_app z ++ [(n, x)]))
(** one step of the consumer *)
| Z_client z l s' es qs :
    own_step (z_ct z) l -> A (z_ct z) l -> TsClientModel.fire CE (z_c z) l = Some (s', es) -> up_packets es qs ->
    move A u z (mkTsys (z_q z) (z_ql z) (z_qt z) s' (z_cl z ++ [l]) (z_ct z ++ es)
                       (z_ups z ++ stream qs) (z_downs z) (z_lost z) (z_app z))
(** a chunk reaches the consumer *)
| Z_deliver z n fuel s' es qs :
    let l := TsClientModel.LData (firstn n (z_downs z)) fuel in
    (n <= length (z_downs z))%nat ->
    TsClientModel.fire CE (z_c z) l = Some (s', es) -> up_packets es qs ->
    move A u z (mkTsys (z_q z) (z_ql z) (z_qt z) s' (z_cl z ++ [l]) (z_ct z ++ es)
                       (z_ups z ++ stream qs) (skipn n (z_downs z)) (z_lost z) (z_app z)).

(** Executions from [z]. *)
Inductive reach (A : list tev -> TsClientModel.label -> Prop) (u : N) (z : tsys) : tsys -> Prop :=
| reach_start : reach A u z z
| reach_move z1 z2 : reach A u z z1 -> move A u z1 z2 -> reach A u z z2.

End System.
