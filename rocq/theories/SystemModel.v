(** A generated producer and one of its generated consumers, connected by a
    transport: the producer of ProducerModel.v (render_mod.rs l.653-835, the
    listener's [select!]) and the consumer of ConsumerModel.v (render_consumer.rs
    l.171-373, one [listen]) run concurrently; between them are two byte streams.

    Simplifications.  The transport (empty submodules in /repo) is assumed to be
    reliable: it neither loses, changes nor reorders bytes; it may hold them back
    and cut them into chunks in any way, but it delivers no empty chunk.  The
    transport connection has been made ([VConnected] has been handled), and it is not
    closed from outside.  Everything else is arbitrary: other consumers, the
    application's handlers, failures of sending and packing, the scheduling. *)
From Coq Require Import List NArith Bool.
From Verif Require Import Bytes WireModel FrameModel FrameProofs.
From Verif Require ProducerModel ConsumerModel.
Import ListNotations.
Open Scope N_scope.

Section System.
Variable PE : ProducerModel.env.
Variable CE : ConsumerModel.cenv.

(** What the generated encoders make of a message: its id and body.  The packing of
    a message (protocol.packing.rs l.133-159) adds the header. *)
Record codec := mkCodec {
  k_up : ConsumerModel.payload CE -> N * bytes;
  k_down : ProducerModel.payload (ProducerModel.e_user PE) -> N * bytes
}.
Variable K : codec.

(** The packet of a message; [ts] is the clock. *)
Definition frame (sig : N) (ib : N * bytes) (n ts : N) : packet :=
  mkPacket (fst ib) sig (n mod 2 ^ 32) (ts mod 2 ^ 64) (snd ib).

(** The messages the transport of the consumer, or of the producer, has accepted. *)
Definition sent_up (t : list (ConsumerModel.out CE)) : list (N * ConsumerModel.payload CE) :=
  flat_map (fun o => match o with ConsumerModel.XSend _ _ n p true => [(n, p)] | _ => [] end) t.
Definition sent_down (u : N) (t : list (ProducerModel.out PE)) : list (N * ProducerModel.payload (ProducerModel.e_user PE)) :=
  flat_map (fun o => match o with ProducerModel.OSend _ v n p true => if v =? u then [(n, p)] else [] | _ => [] end) t.

(** [qs] are packets of these messages, packed at any time. *)
Definition up_packets (ms : list (N * ConsumerModel.payload CE)) (qs : list packet) : Prop :=
  Forall2 (fun np q => exists ts, q = frame (ConsumerModel.x_sig CE) (k_up K (snd np)) (fst np) ts) ms qs.
Definition down_packets (ms : list (N * ProducerModel.payload (ProducerModel.e_user PE))) (qs : list packet) : Prop :=
  Forall2 (fun np q => exists ts, q = frame (ProducerModel.e_sig PE) (k_down K (snd np)) (fst np) ts) ms qs.

(** Both sides were generated from the same protocol and the same workflow: they
    agree on the signature and the hashes, and each understands what the other
    sends.  That the codecs of a generated protocol agree is C01-C09. *)
Record compatible : Prop := {
  y_sig : ProducerModel.e_sig PE = ConsumerModel.x_sig CE;
  y_sig16 : ConsumerModel.x_sig CE < 2 ^ 16;
  y_up : forall p, fst (k_up K p) < 2 ^ 32 /\ blen (snd (k_up K p)) + 26 < 2 ^ 64 /\
    exists m, ProducerModel.e_get PE (fst (k_up K p)) (snd (k_up K p)) = Ok m /\
      match p with
      | ConsumerModel.PSelf _ => ProducerModel.e_self PE m <> None /\ ProducerModel.e_hash PE m = None
      | ConsumerModel.PHash _ => ProducerModel.e_self PE m = None /\
          ProducerModel.e_hash PE m = Some (ProducerModel.e_phash PE, ProducerModel.e_whash PE)
      | ConsumerModel.PUser _ _ _ => ProducerModel.e_self PE m = None /\ ProducerModel.e_hash PE m = None
      end;
  y_down : forall p, fst (k_down K p) < 2 ^ 32 /\ blen (snd (k_down K p)) + 26 < 2 ^ 64 /\
    exists m, ConsumerModel.x_get CE (fst (k_down K p)) (snd (k_down K p)) = Ok m /\
      match p with
      | ProducerModel.PConfirm => ConsumerModel.x_confirm CE m = true /\ ConsumerModel.x_self CE m = None /\ ConsumerModel.x_hash CE m = None
      | ProducerModel.PSelf u => ConsumerModel.x_confirm CE m = false /\ ConsumerModel.x_hash CE m = None /\
          exists t, ConsumerModel.x_self CE m = Some t /\ (u < 2 ^ 128 -> ConsumerModel.x_uuid CE t = Some u)
      | ProducerModel.PHash b => ConsumerModel.x_confirm CE m = false /\ ConsumerModel.x_self CE m = None /\
          exists e, ConsumerModel.x_hash CE m = Some e /\ (e = None <-> b = true)
      | _ => ConsumerModel.x_confirm CE m = false /\ ConsumerModel.x_self CE m = None /\ ConsumerModel.x_hash CE m = None
      end
}.

(** The state: the producer and whether it still runs, what it has done; the
    consumer, its schedule and what it has done; the bytes under way. *)
Record sys := mkSys {
  y_p : ProducerModel.st PE; y_run : bool; y_pt : list (ProducerModel.out PE);
  y_c : ConsumerModel.st CE; y_ls : list (ConsumerModel.label CE); y_ct : list (ConsumerModel.out CE);
  y_ups : bytes; y_downs : bytes
}.

(** render_mod.rs l.238-278: the connection of [u] has been added. *)
Definition fresh (u : N) (y : sys) : Prop :=
  y_run y = true /\ y_pt y = [] /\
  ProducerModel.find PE u (ProducerModel.s_tab PE (y_p y)) = Some (ProducerModel.consumer_new PE) /\
  y_c y = ConsumerModel.start CE /\ y_ls y = [] /\ y_ct y = [] /\ y_ups y = [] /\ y_downs y = [].

(** Events of the producer that do not come from the connection to [u]. *)
Definition apart (u : N) (e : ProducerModel.event) : Prop :=
  match e with
  | ProducerModel.VConnected v | ProducerModel.VDisconnected v | ProducerModel.VReceived v _ => v <> u
  | _ => True
  end.

(** Steps of the consumer that do not come from the connection. *)
Definition own_step (l : ConsumerModel.label CE) : Prop :=
  match l with ConsumerModel.LEvent _ (ConsumerModel.InBinary _) => False | _ => True end.

(** The application of the consumer keeps to the protocol: it calls after it has
    been told of the connection. *)
Definition patient (ct : list (ConsumerModel.out CE)) (l : ConsumerModel.label CE) : Prop :=
  match l with
  | ConsumerModel.LCall _ (ConsumerModel.KReq _ _ _) | ConsumerModel.LCall _ (ConsumerModel.KBeacon _ _ _) =>
    In (ConsumerModel.XEmit CE (ConsumerModel.EConnected CE)) ct
  | _ => True
  end.

(** What the producer has taken up of [u]. *)
Definition handled_by (u : N) (t : list (ProducerModel.out PE)) : list (header * ProducerModel.e_msg PE) :=
  flat_map (fun o => match o with ProducerModel.OHandle _ v h m => if v =? u then [(h, m)] else [] | _ => [] end) t.

Definition goes (r : ProducerModel.pres bool) : bool :=
  match r with ProducerModel.PGo true => true | _ => false end.

(** One step; [A] says which steps the consumer's application may make. *)
Inductive move (A : list (ConsumerModel.out CE) -> ConsumerModel.label CE -> Prop) (u : N) : sys -> sys -> Prop :=
(** one turn of the producer *)
| M_server y e t s' r qs :
    y_run y = true -> apart u e -> ProducerModel.step PE e (y_p y) = (t, (s', r)) -> down_packets (sent_down u t) qs ->
    move A u y (mkSys s' (goes r) (y_pt y ++ t) (y_c y) (y_ls y) (y_ct y) (y_ups y) (y_downs y ++ stream qs))
(** a chunk reaches the producer *)
| M_receive y n t s' r qs :
    y_run y = true -> (0 < n <= length (y_ups y))%nat ->
    ProducerModel.step PE (ProducerModel.VReceived u (firstn n (y_ups y))) (y_p y) = (t, (s', r)) -> down_packets (sent_down u t) qs ->
    move A u y (mkSys s' (goes r) (y_pt y ++ t) (y_c y) (y_ls y) (y_ct y) (skipn n (y_ups y)) (y_downs y ++ stream qs))
(** the server's application sends a message of its own: render_mod.rs l.210-219
    [Control::send], outside the listener *)
| M_control y n x ok qs :
    let t := [ProducerModel.OSend PE u n (ProducerModel.PBroadcast x) ok] in
    down_packets (sent_down u t) qs ->
    move A u y (mkSys (y_p y) (y_run y) (y_pt y ++ t) (y_c y) (y_ls y) (y_ct y) (y_ups y) (y_downs y ++ stream qs))
(** one step of the consumer *)
| M_client y l s' t qs :
    own_step l -> A (y_ct y) l -> ConsumerModel.fire CE l (y_c y) = Some (s', t) -> up_packets (sent_up t) qs ->
    move A u y (mkSys (y_p y) (y_run y) (y_pt y) s' (y_ls y ++ [l]) (y_ct y ++ t) (y_ups y ++ stream qs) (y_downs y))
(** a chunk reaches the consumer *)
| M_deliver y n s' t qs :
    let l := ConsumerModel.LEvent CE (ConsumerModel.InBinary (firstn n (y_downs y))) in
    (n <= length (y_downs y))%nat -> ConsumerModel.fire CE l (y_c y) = Some (s', t) -> up_packets (sent_up t) qs ->
    move A u y (mkSys (y_p y) (y_run y) (y_pt y) s' (y_ls y ++ [l]) (y_ct y ++ t) (y_ups y ++ stream qs) (skipn n (y_downs y))).

(** Executions from [y]. *)
Inductive reach (A : list (ConsumerModel.out CE) -> ConsumerModel.label CE -> Prop) (u : N) (y : sys) : sys -> Prop :=
| reach_start : reach A u y y
| reach_move y1 y2 : reach A u y y1 -> move A u y1 y2 -> reach A u y y2.

End System.
