(** A generated Rust producer and one of its generated TypeScript consumers, connected
    by a transport: the producer of ProducerModel.v
    (cli/src/workflow/render/producer/rust/render_mod.rs l.653-835, the listener's
    [select!]) and the consumer of TsClientModel.v
    (cli/src/workflow/render/consumer/typescript/render_consumer.rs l.70-262) run
    concurrently; between them are two byte streams.

    Simplifications: those of SystemModel.v.  The transport (empty submodules in /repo)
    neither loses, changes nor reorders bytes; it may hold them back and cut them into
    chunks in any way, but it delivers no empty chunk to the producer.  The producer has
    handled [Connected] of the connection, which is not closed from outside.  Other
    consumers, the applications on both sides, failures of sending and packing and the
    scheduling are arbitrary. *)
From Coq Require Import List NArith Bool.
From Verif Require Import Bytes WireModel FrameModel FrameProofs TsModel.
From Verif Require ProducerModel TsClientModel SystemModel TsSystemModel.
Import ListNotations.
Open Scope N_scope.

Section Cross.
Variable PE : ProducerModel.env.
Variable CE : TsClientModel.tenv.
Local Notation tev := (TsClientModel.tev (TsClientModel.t_msg CE)).
Local Notation pay := (ProducerModel.payload (ProducerModel.e_user PE)).

(** What the generated encoders make of a message: its id and body.  [r_up a w] is the
    message that promise [a] of the consumer, which is for [w], sends. *)
Record xcodec := mkXcodec {
  r_up : nat -> TsClientModel.what -> N * bytes;
  r_down : pay -> N * bytes
}.
Variable K : xcodec.

(** [qs] are packets of these messages, packed at any time (protocol.packing.ts,
    protocol.packing.rs l.133-159). *)
Definition up_packets (t : list tev) (qs : list packet) : Prop :=
  Forall2 (fun an q => exists w ts, In (TsClientModel.VCall (fst an) w) t /\
             q = TsSystemModel.frame (TsClientModel.t_sig CE) (r_up K (fst an) w) (snd an) ts)
          (TsSystemModel.sent_up CE t) qs.
Definition down_packets (ms : list (N * pay)) (qs : list packet) : Prop :=
  Forall2 (fun np q => exists ts, q = TsSystemModel.frame (ProducerModel.e_sig PE) (r_down K (snd np)) (fst np) ts) ms qs.

(** Both sides were generated from the same protocol and the same workflow: they agree
    on the signature and the hashes, and each understands what the other sends.  That
    the Rust and the TypeScript codecs of a protocol agree is C13 and C14. *)
Record compatible : Prop := {
  r_sig : ProducerModel.e_sig PE = TsClientModel.t_sig CE;
  r_sig16 : TsClientModel.t_sig CE < 2 ^ 16;
  r_ups_ok : forall a w, fst (r_up K a w) < 2 ^ 32 /\ blen (snd (r_up K a w)) + 26 < 2 ^ 64 /\
    exists m, ProducerModel.e_get PE (fst (r_up K a w)) (snd (r_up K a w)) = Ok m /\
      match w with
      | TsClientModel.WAssign _ => ProducerModel.e_self PE m <> None /\ ProducerModel.e_hash PE m = None
      | TsClientModel.WHash _ => ProducerModel.e_self PE m = None /\
          ProducerModel.e_hash PE m = Some (ProducerModel.e_phash PE, ProducerModel.e_whash PE)
      | TsClientModel.WReq _ _ => ProducerModel.e_self PE m = None /\ ProducerModel.e_hash PE m = None /\ ProducerModel.e_request PE m <> None
      | TsClientModel.WBeacon _ _ => ProducerModel.e_self PE m = None /\ ProducerModel.e_hash PE m = None /\
          ProducerModel.e_request PE m = None /\ ProducerModel.e_beacon PE m <> None
      end;
  r_downs_ok : forall p, fst (r_down K p) < 2 ^ 32 /\ blen (snd (r_down K p)) + 26 < 2 ^ 64 /\
    exists m, TsClientModel.t_get CE (fst (r_down K p)) (snd (r_down K p)) = Ok m /\
      match p with
      | ProducerModel.PSelf _ => TsClientModel.t_hash CE m = None /\
          exists t, TsClientModel.t_self CE m = Some t /\ TsClientModel.t_blank CE t = false
      | ProducerModel.PHash b => TsClientModel.t_self CE m = None /\
          exists e, TsClientModel.t_hash CE m = Some e /\ (e = None <-> b = true)
      | ProducerModel.PBeacon => TsClientModel.t_self CE m = None /\ TsClientModel.t_hash CE m = None /\ TsClientModel.t_beacon CE m = Some None
      | _ => TsClientModel.t_self CE m = None /\ TsClientModel.t_hash CE m = None
      end
}.

(** The state: the producer and whether it still runs, what it has done; the consumer,
    its schedule and what it has done; the bytes under way. *)
Record xsys := mkXsys {
  r_p : ProducerModel.st PE; r_run : bool; r_pt : list (ProducerModel.out PE);
  r_c : TsClientModel.tst (TsClientModel.t_msg CE); r_cl : list TsClientModel.label; r_ct : list tev;
  r_ups : bytes; r_downs : bytes
}.

(** producer/rust render_mod.rs l.238-278: the connection of [u] has been added. *)
Definition fresh (u : N) (y : xsys) : Prop :=
  r_run y = true /\ r_pt y = [] /\
  ProducerModel.find PE u (ProducerModel.s_tab PE (r_p y)) = Some (ProducerModel.consumer_new PE) /\
  r_c y = TsClientModel.tinit /\ r_cl y = [] /\ r_ct y = [] /\ r_ups y = [] /\ r_downs y = [].

(** The producer has sent [u] its confirmation (l.806-811), or tried to. *)
Definition confirmed (u : N) (pt : list (ProducerModel.out PE)) : Prop :=
  exists n ok, In (ProducerModel.OSend PE u n ProducerModel.PConfirm ok) pt.

(** The application of the consumer keeps to the protocol: it sends requests and beacons
    after it has been told that the consumer is ready.  (It may call [assign] at any
    time: the producer takes a further self key without complaint.) *)
Definition patient (t : list tev) (l : TsClientModel.label) : Prop :=
  match l with TsClientModel.LSend _ _ _ => exists v, In (TsClientModel.VReady v) t | _ => True end.

(** One step; [A] says which steps the consumer's application may make, [D] when the
    producer may come upon bytes of [u]. *)
Inductive move (A : list tev -> TsClientModel.label -> Prop) (D : list (ProducerModel.out PE) -> Prop) (u : N) : xsys -> xsys -> Prop :=
(** one turn of the producer *)
| X_server y e t s' r qs :
    r_run y = true -> SystemModel.apart u e -> ProducerModel.step PE e (r_p y) = (t, (s', r)) -> down_packets (SystemModel.sent_down PE u t) qs ->
    move A D u y (mkXsys s' (SystemModel.goes r) (r_pt y ++ t) (r_c y) (r_cl y) (r_ct y) (r_ups y) (r_downs y ++ stream qs))
(** a chunk reaches the producer *)
| X_receive y n t s' r qs :
    r_run y = true -> D (r_pt y) -> (0 < n <= length (r_ups y))%nat ->
    ProducerModel.step PE (ProducerModel.VReceived u (firstn n (r_ups y))) (r_p y) = (t, (s', r)) -> down_packets (SystemModel.sent_down PE u t) qs ->
    move A D u y (mkXsys s' (SystemModel.goes r) (r_pt y ++ t) (r_c y) (r_cl y) (r_ct y) (skipn n (r_ups y)) (r_downs y ++ stream qs))
(** the server's application sends a message of its own (l.210-219 [Control::send]) *)
| X_control y n x ok qs :
    let t := [ProducerModel.OSend PE u n (ProducerModel.PBroadcast x) ok] in
    down_packets (SystemModel.sent_down PE u t) qs ->
    move A D u y (mkXsys (r_p y) (r_run y) (r_pt y ++ t) (r_c y) (r_cl y) (r_ct y) (r_ups y) (r_downs y ++ stream qs))
(** one step of the consumer *)
| X_client y l s' es qs :
    TsSystemModel.own_step CE (r_ct y) l -> A (r_ct y) l -> TsClientModel.fire CE (r_c y) l = Some (s', es) -> up_packets es qs ->
    move A D u y (mkXsys (r_p y) (r_run y) (r_pt y) s' (r_cl y ++ [l]) (r_ct y ++ es) (r_ups y ++ stream qs) (r_downs y))
(** a chunk reaches the consumer *)
| X_deliver y n fuel s' es qs :
    let l := TsClientModel.LData (firstn n (r_downs y)) fuel in
    (n <= length (r_downs y))%nat -> TsClientModel.fire CE (r_c y) l = Some (s', es) -> up_packets es qs ->
    move A D u y (mkXsys (r_p y) (r_run y) (r_pt y) s' (r_cl y ++ [l]) (r_ct y ++ es) (r_ups y ++ stream qs) (skipn n (r_downs y))).

(** Executions from [y]. *)
Inductive reach (A : list tev -> TsClientModel.label -> Prop) (D : list (ProducerModel.out PE) -> Prop) (u : N) (y : xsys) : xsys -> Prop :=
| reach_start : reach A D u y y
| reach_move y1 y2 : reach A D u y y1 -> move A D u y1 y2 -> reach A D u y y2.

End Cross.
