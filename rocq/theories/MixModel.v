(** A generated TypeScript producer and a generated Rust consumer, connected by a
    transport: the producer of TsServerModel.v
    (cli/src/workflow/render/producer/typescript/render_mod.rs l.158-520) and the
    consumer of ConsumerModel.v
    (cli/src/workflow/render/consumer/rust/render_consumer.rs l.171-373, one
    [listen]), both generated from one protocol and one workflow.

    Simplifications.  As in TsSystemModel.v: the transport does not change or
    reorder bytes and does not close the connection; it may hold bytes back, cut them
    anywhere, and refuse whole messages of the producer.  What the server's
    application sends of its own accord is a message of the workflow, not one of the
    internal ones. *)
From Coq Require Import List NArith Bool.
From Verif Require Import Bytes WireModel FrameModel FrameProofs TsModel.
From Verif Require ConsumerModel SystemModel TsServerModel TsSystemModel.
Import ListNotations.
Open Scope N_scope.

Section Mix.
Variable QE : TsServerModel.qenv.
Variable CE : ConsumerModel.cenv.
Local Notation X := (TsServerModel.q_out QE).
Local Notation qev := (TsServerModel.qev (TsServerModel.q_msg QE) X).
Local Notation cout := (ConsumerModel.out CE).

(** What the generated encoders make of a message: its id and body. *)
Record mcodec := mkMcodec {
  f_up : ConsumerModel.payload CE -> N * bytes;
  f_down : TsServerModel.qpay X -> N * bytes
}.
Variable K : mcodec.

(** [passed ms qs]: [qs] are packets of those of the messages [ms] of the producer that
    its transport has taken (producer/typescript/render_mod.rs l.264, l.288, l.300). *)
Inductive passed : list (N * TsServerModel.qpay X) -> list packet -> Prop :=
| passed_nil : passed [] []
| passed_on n p ts ms qs : passed ms qs ->
    passed ((n, p) :: ms) (TsSystemModel.frame (TsServerModel.q_sig QE) (f_down K p) n ts :: qs)
| passed_lost n p ms qs : passed ms qs -> passed ((n, p) :: ms) qs.

(** [qs] are packets of these messages of the consumer, packed at any time. *)
Definition up_packets (ms : list (N * ConsumerModel.payload CE)) (qs : list packet) : Prop :=
  Forall2 (fun np q => exists ts, q = TsSystemModel.frame (ConsumerModel.x_sig CE) (f_up K (snd np)) (fst np) ts) ms qs.

(** Both sides were generated from the same protocol and the same workflow: each
    decodes what the other encodes to a message of the same kind. *)
Record compatible : Prop := {
  f_sig : TsServerModel.q_sig QE = ConsumerModel.x_sig CE;
  f_sig16 : ConsumerModel.x_sig CE < 2 ^ 16;
  f_ups : forall p, fst (f_up K p) < 2 ^ 32 /\ blen (snd (f_up K p)) + 26 < 2 ^ 64 /\
    exists m, TsServerModel.q_get QE (fst (f_up K p)) (snd (f_up K p)) = Ok m /\
      match p with
      | ConsumerModel.PSelf _ => TsServerModel.q_self QE m = true /\ TsServerModel.q_hash QE m = None
      | ConsumerModel.PHash _ => TsServerModel.q_self QE m = false /\
          TsServerModel.q_hash QE m = Some (TsServerModel.q_proto QE, TsServerModel.q_work QE)
      | ConsumerModel.PUser _ _ _ => TsServerModel.q_self QE m = false /\ TsServerModel.q_hash QE m = None /\ TsServerModel.q_for QE m <> None
      end;
  f_downs : forall p, fst (f_down K p) < 2 ^ 32 /\ blen (snd (f_down K p)) + 26 < 2 ^ 64 /\
    exists m, ConsumerModel.x_get CE (fst (f_down K p)) (snd (f_down K p)) = Ok m /\
      ConsumerModel.x_confirm CE m = false /\
      match p with
      | TsServerModel.PSelf u => exists t, ConsumerModel.x_self CE m = Some t /\ (u < 2 ^ 128 -> ConsumerModel.x_uuid CE t = Some u)
      | TsServerModel.PHash b => exists e, ConsumerModel.x_hash CE m = Some e /\ (e = None <-> b = true)
      | TsServerModel.PConfirm => ConsumerModel.x_beacon CE m = Some None
      | TsServerModel.PAnswer _ => ConsumerModel.x_self CE m = None /\ ConsumerModel.x_hash CE m = None
      end
}.

(** The producer and what it has done; the consumer, its schedule and what it has
    done; the bytes under way. *)
Record mix := mkMix {
  f_q : TsServerModel.qst (TsServerModel.q_msg QE) X; f_qt : list qev;
  f_c : ConsumerModel.st CE; f_ls : list (ConsumerModel.label CE); f_ct : list cout;
  f_uw : bytes; f_dw : bytes
}.

(** producer/typescript/render_mod.rs l.158-185: the producer has accepted the
    connection of [u], which becomes object [o]; consumer/rust/render_consumer.rs l.171: the consumer listens. *)
Definition fresh (u : N) (o : nat) (y : mix) : Prop :=
  exists ls s tr,
    TsServerModel.qrun QE ls s tr /\ (forall v, ~ In (TsServerModel.OConnected u v) tr) /\
    TsServerModel.fire QE s (TsServerModel.LConnected u) = Some (f_q y, [TsServerModel.OConnected u o]) /\
    f_qt y = tr ++ [TsServerModel.OConnected u o] /\
    f_c y = ConsumerModel.start CE /\ f_ls y = [] /\ f_ct y = [] /\ f_uw y = [] /\ f_dw y = [].

(** One step; [A] says which steps the consumer's application may make. *)
Inductive move (A : list cout -> ConsumerModel.label CE -> Prop) (u : N) : mix -> mix -> Prop :=
(** one step of the producer *)
| F_server y l s' es qs :
    TsSystemModel.apart QE u l -> TsServerModel.fire QE (f_q y) l = Some (s', es) -> passed (TsSystemModel.handed QE u es) qs ->
    move A u y (mkMix s' (f_qt y ++ es) (f_c y) (f_ls y) (f_ct y) (f_uw y) (f_dw y ++ stream qs))
(** a chunk reaches the producer *)
| F_receive y n fuel s' es qs :
    (0 < n <= length (f_uw y))%nat ->
    TsServerModel.fire QE (f_q y) (TsServerModel.LData u (firstn n (f_uw y)) fuel) = Some (s', es) -> passed (TsSystemModel.handed QE u es) qs ->
    move A u y (mkMix s' (f_qt y ++ es) (f_c y) (f_ls y) (f_ct y) (skipn n (f_uw y)) (f_dw y ++ stream qs))
(** the server's application sends a message: producer/typescript/render_mod.rs l.113-132 *)
| F_control y n x qs :
    passed [(n, TsServerModel.PAnswer x)] qs ->
    move A u y (mkMix (f_q y) (f_qt y) (f_c y) (f_ls y) (f_ct y) (f_uw y) (f_dw y ++ stream qs))
(** one step of the consumer *)
| F_client y l s' t qs :
    SystemModel.own_step CE l -> A (f_ct y) l -> ConsumerModel.fire CE l (f_c y) = Some (s', t) -> up_packets (SystemModel.sent_up CE t) qs ->
    move A u y (mkMix (f_q y) (f_qt y) s' (f_ls y ++ [l]) (f_ct y ++ t) (f_uw y ++ stream qs) (f_dw y))
(** a chunk reaches the consumer *)
| F_deliver y n s' t qs :
    let l := ConsumerModel.LEvent CE (ConsumerModel.InBinary (firstn n (f_dw y))) in
    (n <= length (f_dw y))%nat -> ConsumerModel.fire CE l (f_c y) = Some (s', t) -> up_packets (SystemModel.sent_up CE t) qs ->
    move A u y (mkMix (f_q y) (f_qt y) s' (f_ls y ++ [l]) (f_ct y ++ t) (f_uw y ++ stream qs) (skipn n (f_dw y))).

(** Executions from [y]. *)
Inductive reach (A : list cout -> ConsumerModel.label CE -> Prop) (u : N) (y : mix) : mix -> Prop :=
| reach_start : reach A u y y
| reach_move y1 y2 : reach A u y y1 -> move A u y1 y2 -> reach A u y y2.

End Mix.
