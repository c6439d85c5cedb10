(** A generated Rust producer and a generated TypeScript client left to themselves come
    to rest (C104).  The setting is that of PropCross.v. *)
From Coq Require Import List NArith Arith Bool Lia.
From Coq Require Import Strings.Byte.
From Verif Require Import Bytes WireModel FrameModel FrameProofs TsModel TsReader.
From Verif Require ProducerModel ProducerProofs ProducerMore TsClientModel TsClientProofs TsClientTrace SystemModel SystemProofs TsSystemModel TsSystemProofs PropTsClient.
From Verif Require Import ClientRest CrossModel CrossProofs CrossRest PropCross PropCrossRest.
Import ListNotations.
Open Scope N_scope.

Section Statements.
Variable PE : ProducerModel.env.
Variable CE : TsClientModel.tenv.
Variable K : xcodec PE.
Variable u : N.
(** which steps the application of the client makes; what the client does by itself is allowed *)
Variable A : list (TsClientModel.tev (TsClientModel.t_msg CE)) -> TsClientModel.label -> Prop.
Hypothesis AA : forall t l, automatic l -> A t l.
Local Notation xsys := (xsys PE CE).
Local Notation r_p := (r_p PE CE). Local Notation r_run := (r_run PE CE). Local Notation r_pt := (r_pt PE CE).
Local Notation r_c := (r_c PE CE). Local Notation r_cl := (r_cl PE CE). Local Notation r_ct := (r_ct PE CE).
Local Notation r_ups := (r_ups PE CE). Local Notation r_downs := (r_downs PE CE).
Local Notation mkXsys := (mkXsys PE CE).
Local Notation tev := (TsClientModel.tev (TsClientModel.t_msg CE)).

(** The steps that need nobody outside: bytes arrive (the transport delivers no empty
    chunk), the producer takes a confirmation from its channel, and the client goes on
    with what it has read. *)
Inductive inner (D : list (ProducerModel.out PE) -> Prop) : xsys -> xsys -> Prop :=
| N_confirm y t s' r qs :
    r_run y = true -> ProducerModel.s_conf PE (r_p y) <> [] ->
    ProducerModel.step PE ProducerModel.VConfirm (r_p y) = (t, (s', r)) -> down_packets PE K (SystemModel.sent_down PE u t) qs ->
    inner D y (mkXsys s' (SystemModel.goes r) (r_pt y ++ t) (r_c y) (r_cl y) (r_ct y) (r_ups y) (r_downs y ++ stream qs))
| N_receive y n t s' r qs :
    r_run y = true -> D (r_pt y) -> (0 < n <= length (r_ups y))%nat ->
    ProducerModel.step PE (ProducerModel.VReceived u (firstn n (r_ups y))) (r_p y) = (t, (s', r)) -> down_packets PE K (SystemModel.sent_down PE u t) qs ->
    inner D y (mkXsys s' (SystemModel.goes r) (r_pt y ++ t) (r_c y) (r_cl y) (r_ct y) (skipn n (r_ups y)) (r_downs y ++ stream qs))
| N_client y l s' es qs :
    automatic l -> TsClientModel.fire CE (r_c y) l = Some (s', es) -> up_packets PE CE K es qs ->
    inner D y (mkXsys (r_p y) (r_run y) (r_pt y) s' (r_cl y ++ [l]) (r_ct y ++ es) (r_ups y ++ stream qs) (r_downs y))
| N_deliver y n fuel s' es qs :
    let l := TsClientModel.LData (firstn n (r_downs y)) fuel in
    (0 < n <= length (r_downs y))%nat -> TsClientModel.fire CE (r_c y) l = Some (s', es) -> up_packets PE CE K es qs ->
    inner D y (mkXsys (r_p y) (r_run y) (r_pt y) s' (r_cl y ++ [l]) (r_ct y ++ es) (r_ups y ++ stream qs) (skipn n (r_downs y))).

Inductive inners (D : list (ProducerModel.out PE) -> Prop) (y : xsys) : xsys -> Prop :=
| inners_none : inners D y y
| inners_more y1 y2 : inners D y y1 -> inner D y1 y2 -> inners D y y2.

Lemma inner_move D y y' : inner D y y' -> move PE CE K A D u y y'.
Proof.
  destruct 1 as [y t s' r qs R C S Q|y n t s' r qs R DD N S Q|y l s' es qs AU F Q|y n fuel s' es qs l N F Q].
  - eapply X_server; eauto. exact I.
  - eapply X_receive; eauto.
  - eapply X_client; eauto. destruct l; try elim AU; exact I.
  - eapply X_deliver; eauto. lia.
Qed.
Lemma inners_reach D y0 y y' : reach PE CE K A D u y0 y -> inners D y y' -> reach PE CE K A D u y0 y'.
Proof. intros R I. induction I as [|y1 y2 I IH M]; [exact R|]. econstructor; [exact IH|exact (inner_move _ _ _ M)]. Qed.

(** ** The confirmation of [u] stays in the channel until it is sent *)
Local Notation P := (ProducerModel.P PE).
Local Notation s_conf := (ProducerModel.s_conf PE).
Definition grows {B} (m : P B) : Prop := forall s, ProducerProofs.wp PE m s (fun _ s' _ => incl (s_conf s) (s_conf s')).
Lemma grows_ret {B} (a : B) : grows (ProducerModel.ret PE a). Proof. intros s. apply incl_refl. Qed.
Lemma grows_stop {B} e : grows (ProducerModel.stop PE (A := B) e). Proof. intros s. apply incl_refl. Qed.
Lemma grows_panic {B} : grows (ProducerModel.panic PE (A := B)). Proof. intros s. apply incl_refl. Qed.
Lemma grows_emit o : grows (ProducerModel.emit PE o). Proof. intros s. apply incl_refl. Qed.
Lemma grows_look v : grows (ProducerModel.look PE v). Proof. intros s. apply incl_refl. Qed.
Lemma grows_get : grows (ProducerModel.get_tab PE). Proof. intros s. apply incl_refl. Qed.
Lemma grows_world {B} (f : _ -> _ * B) : grows (ProducerModel.world PE f).
Proof. intros s. unfold ProducerProofs.wp, ProducerModel.world. destruct (f _) as [w a]. apply incl_refl. Qed.
Lemma grows_upd v f : grows (ProducerModel.upd PE v f).
Proof. intros s. unfold ProducerProofs.wp, ProducerModel.upd. destruct (ProducerModel.find PE v _); apply incl_refl. Qed.
Lemma grows_bind {B C} (m : P B) (f : B -> P C) : grows m -> (forall a, grows (f a)) -> grows (ProducerModel.bindp PE m f).
Proof.
  intros H G s. apply ProducerProofs.wp_bind. eapply ProducerProofs.wp_mono; [apply H|]. cbv beta. intros t s' [a|e|] I; auto.
  eapply ProducerProofs.wp_mono; [apply G|]. cbv beta. intros t' s'' r J. exact (incl_tran I J).
Qed.
Local Ltac gr := repeat first
  [ apply grows_ret | apply grows_stop | apply grows_panic | apply grows_emit | apply grows_look | apply grows_get | apply grows_world | apply grows_upd
  | apply grows_bind; [|intros ?] | match goal with |- grows (match ?x with _ => _ end) => destruct x end ].
Lemma grows_try_pack v n p : grows (ProducerModel.try_pack PE v n p). Proof. unfold ProducerModel.try_pack. gr. Qed.
Lemma grows_send v n p : grows (ProducerModel.send PE v n p). Proof. unfold ProducerModel.send. gr. Qed.
Lemma grows_pack_send v n p : grows (ProducerModel.pack_send PE v n p).
Proof. unfold ProducerModel.pack_send. apply grows_bind; [apply grows_try_pack|]. intros [|]; [apply grows_send|apply grows_ret]. Qed.
Lemma grows_broadcast us x : grows (ProducerModel.broadcast PE us x).
Proof. induction us as [|v us IH]; cbn [ProducerModel.broadcast]; [apply grows_ret|]. apply grows_bind; [apply grows_send|]. intros _. exact IH. Qed.
Lemma grows_broadcast_all l : grows (ProducerModel.broadcast_all PE l).
Proof. induction l as [|[us x] l IH]; cbn [ProducerModel.broadcast_all]; [apply grows_ret|]. apply grows_bind; [apply grows_broadcast|]. intros _. exact IH. Qed.
Lemma grows_pack_all v l : grows (ProducerModel.pack_all PE v l).
Proof.
  induction l as [|[us x] l IH]; cbn [ProducerModel.pack_all]; [apply grows_ret|]. apply grows_bind; [apply grows_try_pack|].
  intros [|]; [exact IH|apply grows_ret].
Qed.
Lemma grows_deferred : grows (ProducerModel.deferred PE). Proof. unfold ProducerModel.deferred. gr. Qed.
Lemma grows_emit_error e v i : grows (ProducerModel.emit_error PE e v i). Proof. unfold ProducerModel.emit_error. gr. Qed.
Lemma grows_disconnect v : grows (ProducerModel.disconnect PE v). Proof. unfold ProducerModel.disconnect. gr. Qed.
Lemma grows_ident_at v : grows (ProducerModel.ident_at PE v). Proof. unfold ProducerModel.ident_at. gr. Qed.
Lemma grows_expel v e : grows (ProducerModel.expel PE v e).
Proof. unfold ProducerModel.expel. apply grows_bind; [apply grows_disconnect|]. intros _. apply grows_bind; [apply grows_ident_at|]. intros i. apply grows_emit_error. Qed.
Lemma grows_responsing v : grows (ProducerModel.responsing_err PE v).
Proof.
  unfold ProducerModel.responsing_err. apply grows_bind; [destruct (ProducerModel.e_cs PE); auto using grows_ret, grows_disconnect|]. intros _.
  destruct (ProducerModel.e_cs PE); try apply grows_ret; (apply grows_bind; [apply grows_ident_at|]; intros i; apply grows_emit_error).
Qed.
Lemma grows_not_assigned v : grows (ProducerModel.not_assigned PE v).
Proof.
  unfold ProducerModel.not_assigned. apply grows_bind; [destruct (ProducerModel.e_is PE); auto using grows_ret, grows_disconnect|]. intros _.
  destruct (ProducerModel.e_is PE); try apply grows_ret; (apply grows_bind; [apply grows_ident_at|]; intros i; apply grows_emit_error).
Qed.
Lemma grows_emit_event ds bs : grows (ProducerModel.emit_event PE ds bs).
Proof.
  unfold ProducerModel.emit_event. destruct bs as [bs|]; [|apply grows_ret]. apply grows_bind; [apply grows_pack_all|]. intros [|]; [|apply grows_ret].
  apply grows_bind; [apply grows_broadcast_all|]. intros _. apply grows_bind; [apply grows_deferred|]. intros _. apply grows_ret.
Qed.
Lemma grows_request v r i n m : grows (ProducerModel.process_request PE v r i n m).
Proof.
  unfold ProducerModel.process_request. apply grows_bind; [apply grows_get|]. intros t. apply grows_bind; [apply grows_world|]. intros res.
  apply grows_bind; [apply grows_emit|]. intros _. apply grows_bind.
  - destruct res; [apply grows_ret|destruct (Nat.ltb _ _); [|apply grows_ret]|..]; try apply grows_ret; (apply grows_bind; [apply grows_pack_all|]; intros ok; apply grows_ret).
  - intros [[x l]|]; [|apply grows_ret]. apply grows_bind; [apply grows_pack_send|]. intros [|]; [|apply grows_ret].
    apply grows_bind; [apply grows_broadcast_all|]. intros _. apply grows_bind; [apply grows_deferred|]. intros _. apply grows_ret.
Qed.
Lemma grows_beacon v b i n m : grows (ProducerModel.process_beacon PE v b i n m).
Proof.
  unfold ProducerModel.process_beacon. apply grows_bind; [apply grows_get|]. intros t. apply grows_bind; [apply grows_world|]. intros ok.
  apply grows_bind; [apply grows_emit|]. intros _. destruct ok; [|apply grows_ret]. apply grows_bind; [apply grows_pack_send|]. intros [|]; [|apply grows_ret].
  apply grows_bind; [apply grows_deferred|]. intros _. apply grows_ret.
Qed.
Lemma grows_dispatch v c h m : grows (ProducerModel.dispatch PE v c h m).
Proof.
  unfold ProducerModel.dispatch. destruct (ProducerModel.e_request PE m).
  - apply grows_bind; [apply grows_request|]. intros [|]; [apply grows_ret|apply grows_responsing].
  - destruct (ProducerModel.e_beacon PE m); [|apply grows_ret]. apply grows_bind; [apply grows_beacon|]. intros [|]; [apply grows_ret|apply grows_emit_error].
Qed.
Lemma grows_handle v asg hk h m c : grows (ProducerModel.handle PE v asg hk h m c).
Proof.
  unfold ProducerModel.handle.
  match goal with |- grows (match ProducerModel.e_self PE m with Some k => if _ then ?x else _ | None => _ end) => assert (O : grows x) end.
  { destruct (ProducerModel.e_hash PE m) as [pw|].
    - apply grows_bind; [destruct (ProducerModel.hash_valid PE pw); [apply grows_upd|apply grows_ret]|]. intros _.
      apply grows_bind; [apply grows_pack_send|]. intros ok.
      apply grows_bind; [destruct ok; [apply grows_ret|apply grows_responsing]|]. intros _.
      destruct (ProducerModel.hash_valid PE pw); [apply grows_ret|apply grows_expel].
    - destruct (negb (ProducerModel.c_hash PE c)); [apply grows_expel|]. destruct (negb hk); [apply grows_expel|].
      destruct (negb asg && _); [apply grows_not_assigned|apply grows_dispatch]. }
  destruct (ProducerModel.e_self PE m); [|exact O]. destruct (ProducerModel.c_hash PE c); [exact O|].
  apply grows_bind; [apply grows_upd|]. intros _. apply grows_bind; [apply grows_pack_send|].
  intros [|]; [apply grows_ret|apply grows_responsing].
Qed.
Lemma grows_loop v asg hk ms : grows (ProducerModel.loop PE v asg hk ms).
Proof.
  induction ms as [|[h m] ms IH]; cbn [ProducerModel.loop]; [apply grows_ret|].
  apply grows_bind; [apply grows_look|]. intros [c|]; [|apply grows_ret].
  apply grows_bind; [apply grows_emit|]. intros _. apply grows_bind; [apply grows_handle|]. intros _. exact IH.
Qed.
Lemma grows_received v d : grows (ProducerModel.process_received_data PE v d).
Proof.
  unfold ProducerModel.process_received_data. apply grows_bind; [apply grows_look|]. intros [c|]; [|apply grows_responsing].
  destruct (negb (ProducerModel.c_conf PE c)); [apply grows_expel|].
  destruct (ProducerModel.c_disc PE c); [apply grows_ret|]. destruct (chunk _ _ _ _) as [[|e|] b].
  - apply grows_bind; [apply grows_upd|]. intros _. apply grows_loop.
  - apply grows_bind; [apply grows_upd|]. intros _. apply grows_responsing.
  - apply grows_panic.
Qed.
Lemma grows_add v : grows (ProducerModel.add_connection PE v).
Proof.
  unfold ProducerModel.add_connection. apply grows_bind; [apply grows_look|]. intros [c|]; [apply grows_stop|].
  apply grows_bind; [apply grows_get|]. intros t. apply grows_bind; [apply grows_world|]. intros bs. apply grows_bind; [apply grows_emit|]. intros _.
  apply grows_bind; [apply grows_emit_event|]. intros _ s. unfold ProducerProofs.wp. cbn [fst snd ProducerModel.s_conf]. apply incl_appl, incl_refl.
Qed.
Lemma grows_remove v : grows (ProducerModel.remove_connection PE v).
Proof.
  unfold ProducerModel.remove_connection. apply grows_bind; [apply grows_look|]. intros [c|]; [|apply grows_ret].
  apply grows_bind; [intros s; unfold ProducerProofs.wp; cbn [fst snd ProducerModel.s_conf]; apply incl_refl|]. intros _.
  apply grows_bind; [apply grows_get|]. intros t. apply grows_bind; [apply grows_world|]. intros bs. apply grows_bind; [apply grows_emit|]. intros _.
  apply grows_bind; [apply grows_emit_event|]. intros _. apply grows_ret.
Qed.
Lemma grows_step e : e <> ProducerModel.VConfirm -> grows (ProducerModel.step PE e).
Proof.
  assert (O : forall v, grows (ProducerModel.opt_ident PE v)) by (intros [v|]; [apply grows_ident_at|apply grows_ret]).
  intros NE. destruct e; cbn [ProducerModel.step]; try contradiction;
    try (apply grows_bind; [first [apply grows_add|apply grows_remove|apply grows_received|apply grows_emit_error]|]; intros _; apply grows_ret); try apply grows_ret.
  - gr.
  - apply grows_bind; [apply O|]. intros i. apply grows_bind; [apply grows_emit_error|]. intros _. apply grows_ret.
  - apply grows_bind; [apply O|]. intros i. apply grows_bind; [apply grows_emit_error|]. intros _. apply grows_ret.
  - apply grows_bind; [apply grows_get|]. intros t. apply grows_bind; [apply grows_world|]. intros bs. apply grows_bind; [apply grows_emit|]. intros _.
    apply grows_bind; [apply grows_emit_event|]. intros _. apply grows_ret.
  - apply grows_bind; [apply grows_look|]. intros [c|]; [gr|]. apply grows_bind; [apply grows_emit_error|]. intros _. apply grows_ret.
  - apply grows_bind; [apply grows_look|]. intros [c|]; [gr|]. apply grows_bind; [apply grows_emit_error|]. intros _. apply grows_ret.
Qed.

(** What [VConfirm] does with the channel *)
Lemma confirm_wp v q s : s_conf s = v :: q ->
  ProducerProofs.wp PE (ProducerModel.step PE ProducerModel.VConfirm) s (fun t s' r => s_conf s' = q /\
    ((exists c, ProducerModel.find PE v (ProducerModel.s_tab PE s) = Some c) -> SystemModel.goes r = true -> confirmed PE v t)).
Proof.
  intros C. cbn [ProducerModel.step]. apply ProducerProofs.wp_bind. unfold ProducerModel.confirm, ProducerProofs.wp. rewrite C.
  match goal with |- context [ProducerModel.bindp PE (ProducerModel.look PE v) ?f ?s0] => set (k := f); set (s1 := s0) end.
  enough (H : ProducerProofs.wp PE (ProducerModel.bindp PE (ProducerModel.look PE v) k) s1 (fun t s' r => s_conf s' = q /\
    ((exists c, ProducerModel.find PE v (ProducerModel.s_tab PE s) = Some c) -> r = ProducerModel.PGo tt -> confirmed PE v t))).
  { unfold ProducerProofs.wp in H. destruct (ProducerModel.bindp PE (ProducerModel.look PE v) k s1) as [t [s' r]]. cbn [fst snd] in *.
    destruct H as [H1 H2]. destruct r as [[]|e|]; cbn [fst snd ProducerModel.ret app] in *.
    - split; auto. intros Q _. rewrite app_nil_r. auto.
    - split; auto. intros _ G. discriminate G.
    - split; auto. intros _ G. discriminate G. }
  apply ProducerProofs.wp_bind. unfold ProducerProofs.wp at 1, ProducerModel.look. cbn [fst snd].
  subst k. cbv beta. destruct (ProducerModel.find PE v (ProducerModel.s_tab PE s1)) as [c|] eqn:FV.
  - apply ProducerProofs.wp_bind. unfold ProducerProofs.wp at 1, ProducerModel.upd. rewrite FV. cbn [fst snd].
    apply ProducerProofs.wp_bind. eapply ProducerProofs.wp_mono; [apply ProducerMore.wp_try_pack|]. cbv beta.
    intros t s' r (_ & SC & [[-> ->]|[-> ->]]).
    + apply ProducerProofs.wp_bind. eapply ProducerProofs.wp_mono; [apply ProducerMore.wp_send|]. cbv beta.
      intros t2 s2 r2 (_ & SC2 & ok & -> & ->). assert (E : s_conf s2 = q) by (rewrite SC2, SC; reflexivity).
      destruct ok; unfold ProducerProofs.wp; cbn [fst snd ProducerModel.ret ProducerModel.stop app]; (split; [exact E|]).
      * intros _ _. exists 0, true. left. reflexivity.
      * intros _ G. discriminate G.
    + unfold ProducerProofs.wp. cbn [fst snd ProducerModel.stop]. split; [rewrite SC; reflexivity|]. intros _ G. discriminate G.
  - unfold ProducerModel.emit_error. apply ProducerProofs.wp_bind. apply ProducerMore.wp_world. intros w' a _.
    destruct a; unfold ProducerProofs.wp; cbn; (split; [reflexivity|]); intros (c & FC); exfalso; cbn in FV; rewrite FV in FC; discriminate FC.
Qed.
Lemma confirm_takes s v q t s' r : s_conf s = v :: q -> ProducerModel.step PE ProducerModel.VConfirm s = (t, (s', r)) ->
  s_conf s' = q /\ ((exists c, ProducerModel.find PE v (ProducerModel.s_tab PE s) = Some c) -> SystemModel.goes r = true -> confirmed PE v t).
Proof.
  intros C S. pose proof (confirm_wp v q s C) as W. unfold ProducerProofs.wp in W. rewrite S in W. exact W.
Qed.

Lemma confirming D y0 y : fresh PE CE u y0 -> In u (s_conf (r_p y0)) -> reach PE CE K A D u y0 y ->
  r_run y = true -> In u (s_conf (r_p y)) \/ confirmed PE u (r_pt y).
Proof.
  intros FR IN R. assert (MORE : forall x z, confirmed PE u x -> confirmed PE u (x ++ z)).
  { intros x z (n & ok & J). exists n, ok. apply in_app_iff. auto. }
  induction R as [|y1 y2 R IH M]; [auto|].
  destruct (link_reach PE CE K u _ _ y0 y1 FR R) as (ups & downs & LK).
  destruct M as [y e t s' r qs Rn Ap St Dn|y n t s' r qs Rn DD Ln St Dn|y n x ok qs t Dn|y l s' es qs O O2 F' U|y n fuel s' es qs l Ln F' U];
    cbn [CrossModel.r_run CrossModel.r_p CrossModel.r_pt] in *; auto.
  - intros G. specialize (IH Rn). destruct IH as [J|J]; [|right; auto].
    assert (DEC : e = ProducerModel.VConfirm \/ e <> ProducerModel.VConfirm) by (destruct e; auto; right; discriminate).
    destruct DEC as [->|NE].
    + destruct (s_conf (r_p y)) as [|v q] eqn:SC; [elim J|]. destruct (confirm_takes _ _ _ _ _ _ SC St) as (Q & W). rewrite Q.
      destruct J as [->|J]; [|auto]. right. destruct (l_tab _ _ _ _ _ _ _ LK Rn) as (c & FC & _).
      destruct (W (ex_intro _ c FC) G) as (k & o & H). exists k, o. apply in_app_iff. auto.
    + left. pose proof (grows_step e NE (r_p y)) as GS. unfold ProducerProofs.wp in GS. rewrite St in GS. cbn [fst snd] in GS. exact (GS _ J).
  - intros G. specialize (IH Rn). destruct IH as [J|J]; [|right; auto].
    left. pose proof (grows_step (ProducerModel.VReceived u (firstn n (r_ups y))) ltac:(discriminate) (r_p y)) as GS. unfold ProducerProofs.wp in GS. rewrite St in GS. cbn [fst snd] in GS. exact (GS _ J).
  - intros G. destruct (IH G) as [J|J]; auto.
Qed.

(** ** It cannot go on for ever *)
Definition below : nat * (nat * (nat * (nat * (nat * nat)))) -> nat * (nat * (nat * (nat * (nat * nat)))) -> Prop :=
  lex lt (lex lt (lex lt (lex lt (lex lt lt)))).
Definition measure (y : xsys) : nat * (nat * (nat * (nat * (nat * nat)))) :=
  (total CE (open_of CE) (r_c y) (ids CE (r_ct y)),
   (length (r_ups y), (length (ProducerModel.s_conf PE (r_p y)), (length (r_downs y), rank CE (r_c y) (r_ct y))))).

Lemma confirm_shorter s t s' r : s_conf s <> [] -> ProducerModel.step PE ProducerModel.VConfirm s = (t, (s', r)) ->
  (length (s_conf s') < length (s_conf s))%nat.
Proof.
  intros NE S. destruct (s_conf s) as [|v q] eqn:C; [elim NE; reflexivity|]. destruct (confirm_takes _ _ _ _ _ _ C S) as (-> & _). cbn [length]. lia.
Qed.

Lemma lower D y0 y y' : fresh PE CE u y0 -> reach PE CE K A D u y0 y -> inner D y y' -> below (measure y') (measure y).
Proof.
  intros FR R N. destruct (link_reach PE CE K u _ _ y0 y FR R) as (ups & downs & LK).
  pose proof (TsClientProofs.trun_inv CE _ _ _ (l_run _ _ _ _ _ _ _ LK)) as IV.
  destruct N as [y t s' r qs RN C S Q|y n t s' r qs RN DD L S Q|y l s' es qs AU F Q|y n fuel s' es qs l L F Q];
    unfold below, measure; cbn [CrossModel.r_p CrossModel.r_run CrossModel.r_pt CrossModel.r_c CrossModel.r_cl CrossModel.r_ct CrossModel.r_ups CrossModel.r_downs].
  - right. split; [reflexivity|]. right. split; [reflexivity|]. left. exact (confirm_shorter _ _ _ _ C S).
  - right. split; [reflexivity|]. left. cbn [fst snd]. rewrite skipn_length. lia.
  - destruct (nearer CE _ _ _ _ _ IV AU F) as [H|(H & SU & HR)]; [left; exact H|].
    assert (qs = []) as -> by (unfold up_packets in Q; rewrite SU in Q; inversion Q; reflexivity).
    cbn [stream flat_map]. rewrite app_nil_r. apply le_lex; [exact H|]. right. split; [reflexivity|]. right. split; [reflexivity|].
    right. split; [reflexivity|]. exact HR.
  - assert (H : TsClientModel.c_act s' = TsClientModel.c_act (r_c y) /\ ids CE es = [] /\ TsSystemModel.sent_up CE es = []).
    { subst l. cbn [TsClientModel.fire] in F. destruct (TsClientModel.c_drain (r_c y)); [discriminate F|].
      destruct (ts_chunk _ _ _ _ _) as [[o b]|]; [|discriminate F]. injection F as <- <-. split; [|split]; reflexivity. }
    destruct H as (H1 & H2 & H3).
    assert (qs = []) as -> by (unfold up_packets in Q; rewrite H3 in Q; inversion Q; reflexivity).
    cbn [stream flat_map]. rewrite app_nil_r, ids_app, H2, app_nil_r. right. split.
    { cbn [fst]. unfold total. rewrite H1. reflexivity. }
    right. split; [reflexivity|]. right. split; [reflexivity|]. left. cbn [fst snd]. rewrite skipn_length. lia.
Qed.

Lemma inner_acc D y0 y : fresh PE CE u y0 -> reach PE CE K A D u y0 y -> Acc (fun b a => inner D a b) y.
Proof.
  intros FR R. assert (W : Acc below (measure y)). { apply lex_wf; [exact lt_wf|]. repeat (apply lex_wf; [exact lt_wf|]). exact lt_wf. }
  remember (measure y) as k eqn:EK. revert y R EK. induction W as [k _ IH]. intros y R ->.
  constructor. intros y' N. apply (IH (measure y')); [exact (lower D y0 y y' FR R N)| |reflexivity].
  econstructor; [exact R|exact (inner_move _ _ _ N)].
Qed.

(** ** What is left when no step is possible *)
Hypothesis OK : compatible PE CE K.
(** All bytes that were sent to the client so far, delivered or not. *)
Definition sent_bytes (y : xsys) : bytes := concat (TsClientTrace.chunks CE (r_ct y)) ++ r_downs y.
Definition quiet_end (y : xsys) : Prop := r_run y = false \/ (at_rest PE CE y /\ s_conf (r_p y) = [] /\ confirmed PE u (r_pt y)).

Lemma some_packets ms : exists qs, down_packets PE K ms qs.
Proof.
  induction ms as [|np ms (qs & IH)]; [exists []; constructor|].
  exists (TsSystemModel.frame (ProducerModel.e_sig PE) (r_down _ K (snd np)) (fst np) 0 :: qs). constructor; [eauto|exact IH].
Qed.

Lemma progress (D : list (ProducerModel.out PE) -> Prop) y0 y : fresh PE CE u y0 -> In u (s_conf (r_p y0)) -> (forall pt, confirmed PE u pt -> D pt) ->
  reach PE CE K A D u y0 y -> blen (sent_bytes y) < 2 ^ 64 -> quiet_end y \/ exists y', inner D y y'.
Proof.
  intros FR IN DC R L. destruct (link_reach PE CE K u _ _ y0 y FR R) as (ups & downs & LK).
  destruct (r_run y) eqn:RN; [|left; left; exact RN].
  pose proof (TsClientProofs.trun_inv CE _ _ _ (l_run _ _ _ _ _ _ _ LK)) as IV.
  destruct (s_conf (r_p y)) as [|v q] eqn:SC.
  2:{ right. destruct (ProducerModel.step PE ProducerModel.VConfirm (r_p y)) as [t [s' r]] eqn:S.
      destruct (some_packets (SystemModel.sent_down PE u t)) as (qs & Q). eexists. eapply N_confirm; eauto. rewrite SC. discriminate. }
  assert (CF : confirmed PE u (r_pt y)).
  { destruct (confirming D y0 y FR IN R RN) as [J|J]; [rewrite SC in J; elim J|exact J]. }
  destruct (r_ups y) as [|b bs] eqn:UP.
  2:{ right. destruct (ProducerModel.step PE (ProducerModel.VReceived u (firstn (length (r_ups y)) (r_ups y))) (r_p y)) as [t [s' r]] eqn:S.
      destruct (some_packets (SystemModel.sent_down PE u t)) as (qs & Q). eexists. eapply N_receive; eauto. rewrite UP. cbn [length]. lia. }
  destruct (steps CE _ _ IV) as [AT|(l & s' & es & AU & F & SU)].
  2:{ right. eexists. eapply N_client with (qs := []); eauto. unfold up_packets. rewrite SU. constructor. }
  destruct (r_downs y) as [|b bs] eqn:DN.
  { left. right. split; [|auto]. split; [exact RN|]. split; [exact UP|]. split; [exact DN|exact AT]. }
  right. destruct (downs_ok PE CE K OK _ _ (l_downs _ _ _ _ _ _ _ LK)) as (PK & GD).
  destruct (readable CE _ _ _ downs (r_downs y) (l_run _ _ _ _ _ _ _ LK) (proj1 AT) PK (good_quiet _ _ _ GD) (l_down _ _ _ _ _ _ _ LK)) as (fuel & s' & es & F & SU).
  { rewrite <- (l_down _ _ _ _ _ _ _ LK). exact L. }
  eexists. eapply N_deliver with (n := length (r_downs y)) (qs := []).
  - rewrite DN. cbn [length]. lia.
  - rewrite firstn_all. exact F.
  - unfold up_packets. rewrite SU. constructor.
Qed.

Lemma inners_trans D a b c : inners D a b -> inners D b c -> inners D a c.
Proof. intros H. induction 1 as [|y1 y2 _ IH N]; [exact H|]. econstructor; [exact IH|exact N]. Qed.

(** C104.  From no state can the two go on for ever without the world outside: every
    sequence of such steps ends. *)
Theorem C104_no_endless : forall (D : list (ProducerModel.out PE) -> Prop) y0 y, fresh PE CE u y0 -> reach PE CE K A D u y0 y ->
  ~ exists f : nat -> xsys, f 0%nat = y /\ forall i, inner D (f i) (f (S i)).
Proof.
  intros D y0 y FR R (f & F0 & H). refine (no_chain (fun b a => inner D a b) y (inner_acc D y0 y FR R) f F0 H).
Qed.

(** It ends with the producer stopped, or with both at rest: nothing is under way,
    the client has done what it can, the confirmation of [u] has been sent and the
    confirmation channel is empty. *)
Theorem C104_ends_at_rest : forall (D : list (ProducerModel.out PE) -> Prop) y0 y, fresh PE CE u y0 -> In u (s_conf (r_p y0)) -> (forall pt, confirmed PE u pt -> D pt) ->
  reach PE CE K A D u y0 y -> blen (sent_bytes y) < 2 ^ 64 ->
  (forall y', ~ inner D y y') -> quiet_end y.
Proof.
  intros D y0 y FR IN DC R L NO. destruct (progress D y0 y FR IN DC R L) as [Q|(y' & N)]; [exact Q|]. elim (NO _ N).
Qed.

(** So from every state such an end can be reached. *)
Theorem C104_comes_to_rest : forall (D : list (ProducerModel.out PE) -> Prop) y0 y, fresh PE CE u y0 -> In u (s_conf (r_p y0)) -> (forall pt, confirmed PE u pt -> D pt) ->
  reach PE CE K A D u y0 y ->
  exists y', inners D y y' /\ (quiet_end y' \/ 2 ^ 64 <= blen (sent_bytes y')).
Proof.
  intros D y0 y FR IN DC R. pose proof (inner_acc D y0 y FR R) as AC. induction AC as [y _ IH].
  destruct (N.lt_ge_cases (blen (sent_bytes y)) (2 ^ 64)) as [L|L]; [|exists y; split; [constructor|right; exact L]].
  destruct (progress D y0 y FR IN DC R L) as [Q|(y1 & N)]; [exists y; split; [constructor|left; exact Q]|].
  assert (N1 : inners D y y1) by (econstructor; [constructor|exact N]).
  destruct (IH y1 N) as (y' & H & Q).
  - econstructor; [exact R|exact (inner_move _ _ _ N)].
  - exists y'. split; [exact (inners_trans _ _ _ _ N1 H)|exact Q].
Qed.

End Statements.

Section Calls.
Variable PE : ProducerModel.env.
Variable CE : TsClientModel.tenv.
Variable K : xcodec PE.
Hypothesis OK : compatible PE CE K.
Variable u : N.
Local Notation r_p := (r_p PE CE). Local Notation r_run := (r_run PE CE). Local Notation r_pt := (r_pt PE CE). Local Notation r_ct := (r_ct PE CE). Local Notation r_c := (r_c PE CE).
(** Conversely nothing happens in such a state until somebody outside acts. *)
Theorem C104_rest_is_end : forall (D : list (ProducerModel.out PE) -> Prop) y, at_rest PE CE y -> ProducerModel.s_conf PE (r_p y) = [] -> forall y', ~ inner PE CE K u D y y'.
Proof.
  intros D y (RN & UP & DN & AD & AT) SC y' N.
  destruct N as [y t s' r qs R C S Q|y n t s' r qs R DD N S Q|y l s' es qs AU F Q|y n fuel s' es qs l N F Q].
  - exact (C SC).
  - rewrite UP in N. cbn [length] in N. lia.
  - destruct l as [| | | | | | | |a|a b r]; try (elim AU; fail); cbn [TsClientModel.fire] in F; rewrite AD in F.
    + discriminate F.
    + specialize (AT a). destruct (TsClientModel.c_act (r_c y) a) as [[w [k|k m|v|]]|]; solve [discriminate F|elim AT].
    + specialize (AT a). destruct (TsClientModel.c_act (r_c y) a) as [[w [k|k m|v|]]|]; solve [discriminate F|elim AT|destruct w; discriminate F].
  - rewrite DN in N. cbn [length] in N. lia.
Qed.
Lemma patient_automatic t l : automatic l -> patient CE t l.
Proof. destruct l; intros H; try exact I. elim H. Qed.

(** What this says about calls: when the two cannot go on, every call of the client that
    was sent has ended, under the conditions of C103. *)
Theorem C104_calls_end_partial : forall y0 y a w n p q,
  fresh PE CE u y0 -> In u (ProducerModel.s_conf PE (r_p y0)) -> reach PE CE K (patient CE) (confirmed PE u) u y0 y -> blen (sent_bytes PE CE y) < 2 ^ 64 ->
  (forall y', ~ inner PE CE K u (confirmed PE u) y y') -> r_run y = true -> serves PE u (r_pt y) -> unused PE u n (r_pt y) ->
  In (TsClientModel.VCall a w) (r_ct y) -> r_ct y = p ++ TsClientModel.VNum a n TsClientModel.SOk :: q ->
  match w with TsClientModel.WAssign _ => unhashed CE (r_ct y) p | TsClientModel.WHash _ => True | _ => admitted PE u (r_pt y) end ->
  exists r, In (TsClientModel.VRet a r) q.
Proof.
  intros y0 y a w n p q FR IN R L NO RN SV NB CA E UH.
  destruct (C104_ends_at_rest PE CE K u (patient CE) patient_automatic OK _ y0 y FR IN (fun _ H => H) R L NO) as [Z|(AR & _)]; [congruence|].
  apply (C103_calls_end_partial PE CE K OK u y0 y a w n p q FR R); auto.
  unfold sent_bytes in L. rewrite blen_app in L. lia.
Qed.
End Calls.
Print Assumptions C104_no_endless.
Print Assumptions C104_ends_at_rest.
Print Assumptions C104_comes_to_rest.
Print Assumptions C104_rest_is_end.
Print Assumptions C104_calls_end_partial.

(** ** Concrete cases *)
(** The handshake, a request and a beacon: the demonstration of PropCross.v starts with
    the confirmation of the client 4 in the channel, has something to do once the client
    is connected, and ends in a state in which nothing happens any more. *)
Example C104_example : compatible SE KE demo_codec /\ fresh SE KE 4 start /\ In 4 (ProducerModel.s_conf SE (r_p _ _ start)) /\
  (forall t l, automatic l -> patient KE t l) /\
  (exists y y', reach SE KE demo_codec (patient KE) (confirmed SE 4) 4 start y /\ inner SE KE demo_codec 4 (confirmed SE 4) y y') /\
  exists y, reach SE KE demo_codec (patient KE) (confirmed SE 4) 4 start y /\ blen (sent_bytes SE KE y) < 2 ^ 64 /\
    (forall y', ~ inner SE KE demo_codec 4 (confirmed SE 4) y y') /\ r_run _ _ y = true /\
    In (TsClientModel.VCall 3 (TsClientModel.WBeacon 0 1)) (r_ct _ _ y) /\ In (TsClientModel.VNum 3 4 TsClientModel.SOk) (r_ct _ _ y).
Proof.
  assert (RE : reach SE KE demo_codec (patient KE) (confirmed SE 4) 4 start (ended asks)) by (apply ended_reach; vm_compute; exact I).
  split; [exact demo_compatible|]. split; [exact start_fresh|]. split; [vm_compute; left; reflexivity|]. split; [exact (patient_automatic KE)|]. split.
  - destruct (ProducerModel.step SE ProducerModel.VConfirm (r_p _ _ start)) as [t [s' r]] eqn:S.
    destruct (some_packets SE demo_codec (SystemModel.sent_down SE 4 t)) as (qs & Q).
    eexists start, _. split; [constructor|]. eapply N_confirm; [reflexivity| |exact S|exact Q]. vm_compute. discriminate.
  - exists (ended asks). split; [exact RE|]. split; [vm_compute; reflexivity|]. split.
    + apply C104_rest_is_end; [|vm_compute; reflexivity].
      split; [vm_compute; reflexivity|]. split; [vm_compute; reflexivity|]. split; [vm_compute; reflexivity|]. split; [vm_compute; reflexivity|].
      intro a. do 8 (destruct a as [|a]; [vm_compute; exact I|]). vm_compute. exact I.
    + split; [vm_compute; reflexivity|]. split; vm_compute; member.
Qed.
