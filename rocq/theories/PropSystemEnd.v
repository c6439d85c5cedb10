(** A generated Rust producer and a generated Rust consumer left to themselves come to
    rest, and a consumer that has been stopped ends (C106).  The setting is that of
    PropSystem.v. *)
From Coq Require Import List NArith Arith Bool Lia.
From Coq Require Import Strings.Byte.
From Verif Require Import Bytes WireModel FrameModel FrameProofs.
From Verif Require ProducerModel ProducerProofs ProducerMore ConsumerModel ConsumerInv ConsumerTrace ConsumerTrace2 ConsumerSpec PropProducer PropConsumer PropConsumerLife.
From Verif Require Import SystemModel SystemProofs SystemAnswers SystemLive PropSystem PropAnswers PropRest ClientRest ConsumerRest.
Import ListNotations.
Open Scope N_scope.

Section Statements.
Variable PE : ProducerModel.env.
Variable CE : ConsumerModel.cenv.
Variable K : codec PE CE.
Variable u : N.
Local Notation sys := (sys PE CE).
Local Notation y_p := (y_p PE CE). Local Notation y_run := (y_run PE CE). Local Notation y_pt := (y_pt PE CE).
Local Notation y_c := (y_c PE CE). Local Notation y_ls := (y_ls PE CE). Local Notation y_ct := (y_ct PE CE).
Local Notation y_ups := (y_ups PE CE). Local Notation y_downs := (y_downs PE CE).
Local Notation mkSys := (mkSys PE CE).

(** The steps that need nobody outside: bytes arrive (the transport delivers no empty
    chunk), the producer takes a confirmation from its channel, and the consumer's own
    steps: its tasks and calls go on, its handlers return. *)
Inductive inner : sys -> sys -> Prop :=
| N_confirm y t s' r qs :
    y_run y = true -> ProducerModel.s_conf PE (y_p y) <> [] ->
    ProducerModel.step PE ProducerModel.VConfirm (y_p y) = (t, (s', r)) -> down_packets PE CE K (sent_down PE u t) qs ->
    inner y (mkSys s' (goes r) (y_pt y ++ t) (y_c y) (y_ls y) (y_ct y) (y_ups y) (y_downs y ++ stream qs))
| N_receive y n t s' r qs :
    y_run y = true -> (0 < n <= length (y_ups y))%nat ->
    ProducerModel.step PE (ProducerModel.VReceived u (firstn n (y_ups y))) (y_p y) = (t, (s', r)) -> down_packets PE CE K (sent_down PE u t) qs ->
    inner y (mkSys s' (goes r) (y_pt y ++ t) (y_c y) (y_ls y) (y_ct y) (skipn n (y_ups y)) (y_downs y ++ stream qs))
| N_client y l s' t qs :
    automatic CE l -> ConsumerModel.fire CE l (y_c y) = Some (s', t) -> up_packets PE CE K (sent_up CE t) qs ->
    inner y (mkSys (y_p y) (y_run y) (y_pt y) s' (y_ls y ++ [l]) (y_ct y ++ t) (y_ups y ++ stream qs) (y_downs y))
| N_deliver y n s' t qs :
    let l := ConsumerModel.LEvent CE (ConsumerModel.InBinary (firstn n (y_downs y))) in
    (0 < n <= length (y_downs y))%nat -> ConsumerModel.fire CE l (y_c y) = Some (s', t) -> up_packets PE CE K (sent_up CE t) qs ->
    inner y (mkSys (y_p y) (y_run y) (y_pt y) s' (y_ls y ++ [l]) (y_ct y ++ t) (y_ups y ++ stream qs) (skipn n (y_downs y))).

Inductive inners (y : sys) : sys -> Prop :=
| inners_none : inners y y
| inners_more y1 y2 : inners y y1 -> inner y1 y2 -> inners y y2.

Lemma inner_move y y' : inner y y' -> move PE CE K (patient CE) u y y'.
Proof.
  destruct 1 as [y t s' r qs R C S Q|y n t s' r qs R N S Q|y l s' t qs AU F Q|y n s' t qs l N F Q].
  - eapply M_server; eauto. exact I.
  - eapply M_receive; eauto.
  - eapply M_client; eauto; destruct l; try elim AU; exact I.
  - eapply M_deliver; eauto. lia.
Qed.
Lemma inners_reach y0 y y' : reach PE CE K (patient CE) u y0 y -> inners y y' -> reach PE CE K (patient CE) u y0 y'.
Proof. intros R I. induction I as [|y1 y2 I IH M]; [exact R|]. econstructor; [exact IH|exact (inner_move _ _ M)]. Qed.

(** ** Taking up messages makes no confirmations *)
Local Notation P := (ProducerModel.P PE).
Local Notation s_conf := (ProducerModel.s_conf PE).
Definition is_conf (np : N * ProducerModel.payload (ProducerModel.e_user PE)) : bool := match snd np with ProducerModel.PConfirm => true | _ => false end.
Definition nconf (t : list (ProducerModel.out PE)) : nat := length (filter is_conf (sent_down PE u t)).
Lemma nconf_app x y : nconf (x ++ y) = (nconf x + nconf y)%nat.
Proof. unfold nconf, sent_down. rewrite flat_map_app, filter_app, app_length. reflexivity. Qed.
Definition keeps {B} (m : P B) : Prop := forall s, ProducerProofs.wp PE m s (fun t s' _ => s_conf s' = s_conf s /\ nconf t = 0%nat).
Lemma keeps_ret {B} (a : B) : keeps (ProducerModel.ret PE a). Proof. intros s. split; reflexivity. Qed.
Lemma keeps_stop {B} e : keeps (ProducerModel.stop PE (A := B) e). Proof. intros s. split; reflexivity. Qed.
Lemma keeps_panic {B} : keeps (ProducerModel.panic PE (A := B)). Proof. intros s. split; reflexivity. Qed.
Lemma keeps_emit o : nconf [o] = 0%nat -> keeps (ProducerModel.emit PE o). Proof. intros H s. split; [reflexivity|exact H]. Qed.
Lemma keeps_look v : keeps (ProducerModel.look PE v). Proof. intros s. split; reflexivity. Qed.
Lemma keeps_get : keeps (ProducerModel.get_tab PE). Proof. intros s. split; reflexivity. Qed.
Lemma keeps_world {B} (f : _ -> _ * B) : keeps (ProducerModel.world PE f).
Proof. intros s. unfold ProducerProofs.wp, ProducerModel.world. destruct (f _) as [w a]. split; reflexivity. Qed.
Lemma keeps_upd v f : keeps (ProducerModel.upd PE v f).
Proof. intros s. unfold ProducerProofs.wp, ProducerModel.upd. destruct (ProducerModel.find PE v _); split; reflexivity. Qed.
Lemma keeps_bind {B C} (m : P B) (f : B -> P C) : keeps m -> (forall a, keeps (f a)) -> keeps (ProducerModel.bindp PE m f).
Proof.
  intros H G s. apply ProducerProofs.wp_bind. eapply ProducerProofs.wp_mono; [apply H|]. cbv beta. intros t s' [a|e|] [I1 I2]; auto.
  eapply ProducerProofs.wp_mono; [apply G|]. cbv beta. intros t' s'' r [J1 J2]. split; [congruence|]. rewrite nconf_app, I2, J2. reflexivity.
Qed.
Local Ltac gr := repeat first
  [ apply keeps_ret | apply keeps_stop | apply keeps_panic | (apply keeps_emit; reflexivity) | apply keeps_look | apply keeps_get | apply keeps_world | apply keeps_upd
  | apply keeps_bind; [|intros ?] | match goal with |- keeps (match ?x with _ => _ end) => destruct x end ].
Lemma keeps_try_pack v n p : keeps (ProducerModel.try_pack PE v n p). Proof. unfold ProducerModel.try_pack. gr. Qed.
Lemma keeps_send v n p : p <> ProducerModel.PConfirm -> keeps (ProducerModel.send PE v n p).
Proof.
  intros NP. unfold ProducerModel.send. apply keeps_bind; [apply keeps_world|]. intros ok. apply keeps_bind; [|intros _; apply keeps_ret].
  apply keeps_emit. unfold nconf, sent_down. cbn [flat_map]. destruct ok; [|reflexivity]. destruct (v =? u); [|reflexivity].
  cbn [app filter]. unfold is_conf. cbn [snd]. destruct p; try reflexivity. elim NP; reflexivity.
Qed.
Lemma keeps_pack_send v n p : p <> ProducerModel.PConfirm -> keeps (ProducerModel.pack_send PE v n p).
Proof. intros NP. unfold ProducerModel.pack_send. apply keeps_bind; [apply keeps_try_pack|]. intros [|]; [apply keeps_send; exact NP|apply keeps_ret]. Qed.
Lemma keeps_broadcast us x : keeps (ProducerModel.broadcast PE us x).
Proof. induction us as [|v us IH]; cbn [ProducerModel.broadcast]; [apply keeps_ret|]. apply keeps_bind; [apply keeps_send; discriminate|]. intros _. exact IH. Qed.
Lemma keeps_broadcast_all l : keeps (ProducerModel.broadcast_all PE l).
Proof. induction l as [|[us x] l IH]; cbn [ProducerModel.broadcast_all]; [apply keeps_ret|]. apply keeps_bind; [apply keeps_broadcast|]. intros _. exact IH. Qed.
Lemma keeps_pack_all v l : keeps (ProducerModel.pack_all PE v l).
Proof.
  induction l as [|[us x] l IH]; cbn [ProducerModel.pack_all]; [apply keeps_ret|]. apply keeps_bind; [apply keeps_try_pack|].
  intros [|]; [exact IH|apply keeps_ret].
Qed.
Lemma keeps_deferred : keeps (ProducerModel.deferred PE). Proof. unfold ProducerModel.deferred. gr. Qed.
Lemma keeps_emit_error e v i : keeps (ProducerModel.emit_error PE e v i). Proof. unfold ProducerModel.emit_error. gr. Qed.
Lemma keeps_disconnect v : keeps (ProducerModel.disconnect PE v). Proof. unfold ProducerModel.disconnect. gr. Qed.
Lemma keeps_ident_at v : keeps (ProducerModel.ident_at PE v). Proof. unfold ProducerModel.ident_at. gr. Qed.
Lemma keeps_expel v e : keeps (ProducerModel.expel PE v e).
Proof. unfold ProducerModel.expel. apply keeps_bind; [apply keeps_disconnect|]. intros _. apply keeps_bind; [apply keeps_ident_at|]. intros i. apply keeps_emit_error. Qed.
Lemma keeps_responsing v : keeps (ProducerModel.responsing_err PE v).
Proof.
  unfold ProducerModel.responsing_err. apply keeps_bind; [destruct (ProducerModel.e_cs PE); auto using keeps_ret, keeps_disconnect|]. intros _.
  destruct (ProducerModel.e_cs PE); try apply keeps_ret; (apply keeps_bind; [apply keeps_ident_at|]; intros i; apply keeps_emit_error).
Qed.
Lemma keeps_not_assigned v : keeps (ProducerModel.not_assigned PE v).
Proof.
  unfold ProducerModel.not_assigned. apply keeps_bind; [destruct (ProducerModel.e_is PE); auto using keeps_ret, keeps_disconnect|]. intros _.
  destruct (ProducerModel.e_is PE); try apply keeps_ret; (apply keeps_bind; [apply keeps_ident_at|]; intros i; apply keeps_emit_error).
Qed.
Lemma keeps_emit_event ds bs : keeps (ProducerModel.emit_event PE ds bs).
Proof.
  unfold ProducerModel.emit_event. destruct bs as [bs|]; [|apply keeps_ret]. apply keeps_bind; [apply keeps_pack_all|]. intros [|]; [|apply keeps_ret].
  apply keeps_bind; [apply keeps_broadcast_all|]. intros _. apply keeps_bind; [apply keeps_deferred|]. intros _. apply keeps_ret.
Qed.
Lemma keeps_request v r i n m : keeps (ProducerModel.process_request PE v r i n m).
Proof.
  unfold ProducerModel.process_request. apply keeps_bind; [apply keeps_get|]. intros t. apply keeps_bind; [apply keeps_world|]. intros res.
  apply keeps_bind; [apply keeps_emit; reflexivity|]. intros _. apply keeps_bind.
  - destruct res; [apply keeps_ret|destruct (Nat.ltb _ _); [|apply keeps_ret]|..]; try apply keeps_ret; (apply keeps_bind; [apply keeps_pack_all|]; intros ok; apply keeps_ret).
  - intros [[x l]|]; [|apply keeps_ret]. apply keeps_bind; [apply keeps_pack_send; discriminate|]. intros [|]; [|apply keeps_ret].
    apply keeps_bind; [apply keeps_broadcast_all|]. intros _. apply keeps_bind; [apply keeps_deferred|]. intros _. apply keeps_ret.
Qed.
Lemma keeps_beacon v b i n m : keeps (ProducerModel.process_beacon PE v b i n m).
Proof.
  unfold ProducerModel.process_beacon. apply keeps_bind; [apply keeps_get|]. intros t. apply keeps_bind; [apply keeps_world|]. intros ok.
  apply keeps_bind; [apply keeps_emit; reflexivity|]. intros _. destruct ok; [|apply keeps_ret]. apply keeps_bind; [apply keeps_pack_send; discriminate|]. intros [|]; [|apply keeps_ret].
  apply keeps_bind; [apply keeps_deferred|]. intros _. apply keeps_ret.
Qed.
Lemma keeps_dispatch v c h m : keeps (ProducerModel.dispatch PE v c h m).
Proof.
  unfold ProducerModel.dispatch. destruct (ProducerModel.e_request PE m).
  - apply keeps_bind; [apply keeps_request|]. intros [|]; [apply keeps_ret|apply keeps_responsing].
  - destruct (ProducerModel.e_beacon PE m); [|apply keeps_ret]. apply keeps_bind; [apply keeps_beacon|]. intros [|]; [apply keeps_ret|apply keeps_emit_error].
Qed.
Lemma keeps_handle v asg hk h m c : keeps (ProducerModel.handle PE v asg hk h m c).
Proof.
  unfold ProducerModel.handle.
  match goal with |- keeps (match ProducerModel.e_self PE m with Some k => if _ then ?x else _ | None => _ end) => assert (O : keeps x) end.
  { destruct (ProducerModel.e_hash PE m) as [pw|].
    - apply keeps_bind; [destruct (ProducerModel.hash_valid PE pw); [apply keeps_upd|apply keeps_ret]|]. intros _.
      apply keeps_bind; [apply keeps_pack_send; discriminate|]. intros ok.
      apply keeps_bind; [destruct ok; [apply keeps_ret|apply keeps_responsing]|]. intros _.
      destruct (ProducerModel.hash_valid PE pw); [apply keeps_ret|apply keeps_expel].
    - destruct (negb (ProducerModel.c_hash PE c)); [apply keeps_expel|]. destruct (negb hk); [apply keeps_expel|].
      destruct (negb asg && _); [apply keeps_not_assigned|apply keeps_dispatch]. }
  destruct (ProducerModel.e_self PE m); [|exact O]. destruct (ProducerModel.c_hash PE c); [exact O|].
  apply keeps_bind; [apply keeps_upd|]. intros _. apply keeps_bind; [apply keeps_pack_send; discriminate|].
  intros [|]; [apply keeps_ret|apply keeps_responsing].
Qed.
Lemma keeps_loop v asg hk ms : keeps (ProducerModel.loop PE v asg hk ms).
Proof.
  induction ms as [|[h m] ms IH]; cbn [ProducerModel.loop]; [apply keeps_ret|].
  apply keeps_bind; [apply keeps_look|]. intros [c|]; [|apply keeps_ret].
  apply keeps_bind; [apply keeps_emit; reflexivity|]. intros _. apply keeps_bind; [apply keeps_handle|]. intros _. exact IH.
Qed.
Lemma keeps_received v d : keeps (ProducerModel.process_received_data PE v d).
Proof.
  unfold ProducerModel.process_received_data. apply keeps_bind; [apply keeps_look|]. intros [c|]; [|apply keeps_responsing].
  destruct (negb (ProducerModel.c_conf PE c)); [apply keeps_expel|].
  destruct (ProducerModel.c_disc PE c); [apply keeps_ret|]. destruct (chunk _ _ _ _) as [[|e|] b].
  - apply keeps_bind; [apply keeps_upd|]. intros _. apply keeps_loop.
  - apply keeps_bind; [apply keeps_upd|]. intros _. apply keeps_responsing.
  - apply keeps_panic.
Qed.

Lemma receive_keeps d s t s' r : ProducerModel.step PE (ProducerModel.VReceived u d) s = (t, (s', r)) -> s_conf s' = s_conf s /\ nconf t = 0%nat.
Proof.
  intros S. assert (KK : keeps (ProducerModel.step PE (ProducerModel.VReceived u d))).
  { cbn [ProducerModel.step]. apply keeps_bind; [apply keeps_received|]. intros _. apply keeps_ret. }
  specialize (KK s). unfold ProducerProofs.wp in KK. rewrite S in KK. exact KK.
Qed.
Lemma conf_one v n (p : ProducerModel.payload (ProducerModel.e_user PE)) ok : (nconf [ProducerModel.OSend PE v n p ok] <= 1)%nat.
Proof. unfold nconf, sent_down. cbn [flat_map]. destruct ok; [|apply Nat.le_0_l]. destruct (v =? u); [|apply Nat.le_0_l]. cbn [app filter]. destruct (is_conf _); cbn [length]; lia. Qed.
Lemma confirm_wp v q s : s_conf s = v :: q ->
  ProducerProofs.wp PE (ProducerModel.step PE ProducerModel.VConfirm) s (fun t s' r => s_conf s' = q /\ (nconf t <= 1)%nat).
Proof.
  intros C. cbn [ProducerModel.step]. apply ProducerProofs.wp_bind. unfold ProducerModel.confirm, ProducerProofs.wp. rewrite C.
  match goal with |- context [ProducerModel.bindp PE (ProducerModel.look PE v) ?f ?s0] => set (k := f); set (s1 := s0) end.
  enough (H : ProducerProofs.wp PE (ProducerModel.bindp PE (ProducerModel.look PE v) k) s1 (fun t s' r => s_conf s' = q /\ (nconf t <= 1)%nat)).
  { unfold ProducerProofs.wp in H. destruct (ProducerModel.bindp PE (ProducerModel.look PE v) k s1) as [t [s' r]]. cbn [fst snd] in *.
    destruct H as [H1 H2]. destruct r as [[]|e|]; cbn [fst snd ProducerModel.ret app] in *; auto. rewrite app_nil_r. auto. }
  apply ProducerProofs.wp_bind. unfold ProducerProofs.wp at 1, ProducerModel.look. cbn [fst snd].
  subst k. cbv beta. destruct (ProducerModel.find PE v (ProducerModel.s_tab PE s1)) as [c|] eqn:FV.
  - apply ProducerProofs.wp_bind. unfold ProducerProofs.wp at 1, ProducerModel.upd. rewrite FV. cbn [fst snd].
    apply ProducerProofs.wp_bind. eapply ProducerProofs.wp_mono; [apply ProducerMore.wp_try_pack|]. cbv beta.
    intros t s' r (_ & SC & [[-> ->]|[-> ->]]).
    + apply ProducerProofs.wp_bind. eapply ProducerProofs.wp_mono; [apply ProducerMore.wp_send|]. cbv beta.
      intros t2 s2 r2 (_ & SC2 & ok & -> & ->). assert (E : s_conf s2 = q) by (rewrite SC2, SC; reflexivity).
      destruct ok; unfold ProducerProofs.wp; cbn [fst snd ProducerModel.ret ProducerModel.stop app]; (split; [exact E|]); apply conf_one.
    + unfold ProducerProofs.wp. cbn [fst snd ProducerModel.stop]. split; [rewrite SC; reflexivity|]. cbn [app]. apply Nat.le_0_l.
  - unfold ProducerModel.emit_error. apply ProducerProofs.wp_bind. apply ProducerMore.wp_world. intros w' a _.
    destruct a; unfold ProducerProofs.wp; cbn; (split; [reflexivity|]); apply Nat.le_0_l.
Qed.
Lemma confirm_takes s t s' r : s_conf s <> [] -> ProducerModel.step PE ProducerModel.VConfirm s = (t, (s', r)) ->
  (length (s_conf s) = S (length (s_conf s')) /\ nconf t <= 1)%nat.
Proof.
  intros C S. destruct (s_conf s) as [|v q] eqn:SC; [elim C; reflexivity|]. pose proof (confirm_wp v q s SC) as W. unfold ProducerProofs.wp in W. rewrite S in W. cbn [fst snd] in W.
  destruct W as (-> & W). split; [reflexivity|exact W].
Qed.

(** ** The consumer reads no more confirmations than were sent *)
Hypothesis OK : compatible PE CE K.
Lemma confirms_sent y0 y : fresh PE CE u y0 -> reach PE CE K (patient CE) u y0 y -> (confirms CE (y_ct y) <= nconf (y_pt y))%nat.
Proof.
  intros FR R. destruct (inv_reach PE CE K u OK y0 y FR R) as (ups & downs & I).
  destruct (down_ok PE CE K OK _ _ (i_downs _ _ _ _ _ _ _ I)) as (PK & GOOD).
  destruct (PropConsumerLife.reading CE downs [] PK (goods_calm _ _ _ GOOD) incomplete_nil _ _ _ (y_downs y) (i_run _ _ _ _ _ _ _ I)) as (j & _ & _ & B2 & _).
  { rewrite app_nil_r. apply I. }
  pose proof (downs_arrive PE CE K OK _ _ (i_downs _ _ _ _ _ _ _ I)) as FD.
  rewrite <- (firstn_skipn j downs), flat_map_app, <- B2, <- app_assoc in FD.
  apply Forall2_app_inv_l in FD. destruct FD as (d1 & d2 & FD & _ & SD). unfold confirms, nconf. rewrite SD, filter_app, app_length.
  enough (length (filter (fun hm => ConsumerModel.x_confirm CE (snd hm)) (PropConsumerLife.read CE (y_ct y))) = length (filter is_conf d1)) by lia.
  clear -FD OK. induction FD as [|[h m] [n p] l1 l2 (E1 & E2) FD IH]; [reflexivity|]. cbn [filter snd].
  assert (X : ConsumerModel.x_confirm CE m = is_conf (n, p)).
  { cbn [snd] in E2. destruct (y_down _ _ _ OK p) as (_ & _ & m' & Gm & D). rewrite E2 in Gm. injection Gm as <-. unfold is_conf. cbn [snd]. destruct p; apply D. }
  rewrite X. destruct (is_conf (n, p)); cbn [length]; auto.
Qed.

(** ** It cannot go on for ever *)
Definition below : nat * (nat * (nat * (nat * (nat * nat)))) -> nat * (nat * (nat * (nat * (nat * nat)))) -> Prop :=
  lex lt (lex lt (lex lt (lex lt (lex lt lt)))).
Definition unread (y : sys) : nat := (length (s_conf (y_p y)) + nconf (y_pt y) - confirms CE (y_ct y))%nat.
Definition measure (y : sys) : nat * (nat * (nat * (nat * (nat * nat)))) :=
  ((2 * unread y + sends CE (y_c y))%nat, (length (y_ups y), (length (s_conf (y_p y)), (length (y_downs y), crank CE (y_c y))))).

Lemma confirms_app x y : confirms CE (x ++ y) = (confirms CE x + confirms CE y)%nat.
Proof. unfold confirms, PropConsumerLife.read. rewrite flat_map_app, filter_app, app_length. reflexivity. Qed.

Lemma lower y0 y y' : fresh PE CE u y0 -> reach PE CE K (patient CE) u y0 y -> inner y y' -> below (measure y') (measure y).
Proof.
  intros FR R N. assert (R' : reach PE CE K (patient CE) u y0 y') by (econstructor; [exact R|exact (inner_move _ _ N)]).
  pose proof (confirms_sent y0 y FR R) as B. pose proof (confirms_sent y0 y' FR R') as B'. clear R R'.
  destruct N as [y t s' r qs RN C S Q|y n t s' r qs RN L S Q|y l s' t qs AU F Q|y n s' t qs l L F Q];
    unfold below, measure, unread; cbn [SystemModel.y_p SystemModel.y_run SystemModel.y_pt SystemModel.y_c SystemModel.y_ls SystemModel.y_ct SystemModel.y_ups SystemModel.y_downs] in *.
  - destruct (confirm_takes _ _ _ _ C S) as (H1 & H2). rewrite nconf_app. apply le_lex; [lia|].
    right. split; [reflexivity|]. left. cbn [fst snd]. lia.
  - destruct (receive_keeps _ _ _ _ _ S) as (H1 & H2). rewrite nconf_app, H1, H2. apply le_lex; [lia|].
    left. cbn [fst snd]. rewrite skipn_length. lia.
  - destruct (nearer CE _ _ _ _ AU F) as (H1 & H2). rewrite confirms_app in *.
    destruct (sent_up CE t) as [|x l0] eqn:SU.
    + assert (qs = []) as -> by (unfold up_packets in Q; inversion Q; reflexivity).
      cbn [stream flat_map length] in *. rewrite app_nil_r. apply le_lex; [lia|]. right. split; [reflexivity|]. right. split; [reflexivity|].
      right. split; [reflexivity|]. exact H2.
    + left. cbn [fst length] in *. lia.
  - destruct (event_sends CE _ _ _ _ F) as (H1 & H2 & H3).
    assert (qs = []) as -> by (unfold up_packets in Q; rewrite H2 in Q; inversion Q; reflexivity).
    assert (confirms CE t = 0%nat) as H4 by (unfold confirms; rewrite H3; reflexivity).
    cbn [stream flat_map]. rewrite app_nil_r, confirms_app, H4. apply le_lex; [lia|].
    right. split; [reflexivity|]. right. split; [reflexivity|]. left. cbn [fst snd]. rewrite skipn_length. lia.
Qed.

Lemma inner_acc y0 y : fresh PE CE u y0 -> reach PE CE K (patient CE) u y0 y -> Acc (fun b a => inner a b) y.
Proof.
  intros FR R. assert (W : Acc below (measure y)). { apply lex_wf; [exact lt_wf|]. repeat (apply lex_wf; [exact lt_wf|]). exact lt_wf. }
  remember (measure y) as k eqn:EK. revert y R EK. induction W as [k _ IH]. intros y R ->.
  constructor. intros y' N. apply (IH (measure y')); [exact (lower y0 y y' FR R N)| |reflexivity].
  econstructor; [exact R|exact (inner_move _ _ N)].
Qed.

(** ** What is left when no step is possible *)
Lemma some_downs ms : exists qs, down_packets PE CE K ms qs.
Proof.
  induction ms as [|np ms (qs & IH)]; [exists []; constructor|].
  exists (frame (ProducerModel.e_sig PE) (k_down _ _ K (snd np)) (fst np) 0 :: qs). constructor; [eauto|exact IH].
Qed.
Lemma some_ups ms : exists qs, up_packets PE CE K ms qs.
Proof.
  induction ms as [|np ms (qs & IH)]; [exists []; constructor|].
  exists (frame (ConsumerModel.x_sig CE) (k_up _ _ K (snd np)) (fst np) 0 :: qs). constructor; [eauto|exact IH].
Qed.

(** A handler of the consumer awaits the [shutdown] that waits for the handler (C54). *)
Definition deadlocked (y : sys) : Prop :=
  exists a k, ConsumerModel.s_hand CE (y_c y) = Some (Some a) /\ ConsumerModel.s_shut CE (y_c y) = ConsumerModel.ShGot a /\
    ConsumerModel.act CE a (ConsumerModel.s_acts CE (y_c y)) = Some (k, ConsumerModel.WStop CE).
Definition quiet_end (y : sys) : Prop :=
  (y_run y = true -> s_conf (y_p y) = [] /\ y_ups y = []) /\
  ((y_downs y = [] /\ still CE (y_c y)) \/ (exists b r, In (ConsumerModel.XOver CE b r) (y_ct y)) \/ deadlocked y).

Lemma progress y0 y : fresh PE CE u y0 -> reach PE CE K (patient CE) u y0 y -> quiet_end y \/ exists y', inner y y'.
Proof.
  intros FR R. destruct (steps CE (y_c y)) as [ST|(l & s' & t & AU & F)].
  2:{ right. destruct (some_ups (sent_up CE t)) as (qs & Q). eexists. eapply N_client; eauto. }
  assert (PR : (y_run y = true -> s_conf (y_p y) = [] /\ y_ups y = []) \/ exists y', inner y y').
  { destruct (y_run y) eqn:RN; [|left; discriminate]. destruct (s_conf (y_p y)) as [|v q] eqn:SC.
    - destruct (y_ups y) as [|b bs] eqn:UP; [left; auto|right].
      destruct (ProducerModel.step PE (ProducerModel.VReceived u (firstn (length (y_ups y)) (y_ups y))) (y_p y)) as [t [s' r]] eqn:S.
      destruct (some_downs (sent_down PE u t)) as (qs & Q). eexists. eapply N_receive; eauto. rewrite UP. cbn [length]. lia.
    - right. destruct (ProducerModel.step PE ProducerModel.VConfirm (y_p y)) as [t [s' r]] eqn:S.
      destruct (some_downs (sent_down PE u t)) as (qs & Q). eexists. eapply N_confirm; eauto. rewrite SC. discriminate. }
  destruct PR as [PR|PR]; [|right; exact PR].
  destruct (inv_reach PE CE K u OK y0 y FR R) as (ups & downs & I).
  pose proof (ConsumerTrace2.runs_inv CE _ _ [] _ _ (ConsumerTrace2.start_inv CE) (i_run _ _ _ _ _ _ _ I)) as CI. cbn [app] in CI.
  destruct (ConsumerModel.s_cancel CE (y_c y)) eqn:CN.
  { left. split; [exact PR|]. right. destruct (still_cancelled CE _ _ CI ST CN) as [OV|DL]; [left|right; exact DL].
    exact (ConsumerTrace2.e_over' _ _ _ (ConsumerTrace2.i_ends _ _ _ CI) OV). }
  pose proof (ConsumerTrace2.i_tasks _ _ _ CI) as TK.
  assert (U : ConsumerModel.api_up CE (y_c y) = true).
  { destruct (ConsumerModel.api_up CE (y_c y)) eqn:U; [reflexivity|]. destruct (ConsumerInv.k_api _ _ TK U) as (_ & _ & Z). congruence. }
  assert (M : ConsumerModel.msg_up CE (y_c y) = true).
  { destruct (ConsumerModel.msg_up CE (y_c y)) eqn:M; [reflexivity|]. destruct (ConsumerInv.k_msg _ _ TK M) as (_ & Z). congruence. }
  destruct (idle_ready CE _ _ CI (still_idle CE _ ST) U M) as (_ & MI).
  destruct (y_downs y) as [|b bs] eqn:DN.
  - left. split; [exact PR|]. left. split; [exact DN|]. exact ST.
  - right. destruct (ConsumerModel.fire CE (ConsumerModel.LEvent CE (ConsumerModel.InBinary (firstn (length (y_downs y)) (y_downs y)))) (y_c y)) as [[s' t]|] eqn:F.
    + destruct (some_ups (sent_up CE t)) as (qs & Q). eexists. eapply N_deliver; eauto. rewrite DN. cbn [length]. lia.
    + cbn [ConsumerModel.fire] in F. rewrite MI in F. discriminate F.
Qed.

Lemma inners_trans a b c : inners a b -> inners b c -> inners a c.
Proof. intros H. induction 1 as [|y1 y2 _ IH N]; [exact H|]. econstructor; [exact IH|exact N]. Qed.

(** C106.  From no state can the two go on for ever without the world outside: every
    sequence of such steps ends. *)
Theorem C106_no_endless : forall y0 y, fresh PE CE u y0 -> reach PE CE K (patient CE) u y0 y ->
  ~ exists f : nat -> sys, f 0%nat = y /\ forall i, inner (f i) (f (S i)).
Proof.
  intros y0 y FR R (f & F0 & H). refine (no_chain (fun b a => inner a b) y (inner_acc y0 y FR R) f F0 H).
Qed.

(** When it ends, the producer (unless it has stopped) has taken everything from the
    connection and from the channel of confirmations, and of the consumer one of these
    holds: everything that was sent to it has arrived, and it waits; its [listen] has
    returned; or a handler of its application awaits the [shutdown] that waits for it. *)
Theorem C106_ends : forall y0 y, fresh PE CE u y0 -> reach PE CE K (patient CE) u y0 y ->
  (forall y', ~ inner y y') -> quiet_end y.
Proof. intros y0 y FR R NO. destruct (progress y0 y FR R) as [Q|(y' & N)]; [exact Q|]. elim (NO _ N). Qed.

(** So from every state such an end can be reached. *)
Theorem C106_comes_to_rest : forall y0 y, fresh PE CE u y0 -> reach PE CE K (patient CE) u y0 y ->
  exists y', inners y y' /\ quiet_end y'.
Proof.
  intros y0 y FR R. pose proof (inner_acc y0 y FR R) as AC. induction AC as [y _ IH].
  destruct (progress y0 y FR R) as [Q|(y1 & N)]; [exists y; split; [constructor|exact Q]|].
  assert (N1 : inners y y1) by (econstructor; [constructor|exact N]).
  destruct (IH y1 N) as (y' & H & Q).
  - econstructor; [exact R|exact (inner_move _ _ N)].
  - exists y'. split; [exact (inners_trans _ _ _ N1 H)|exact Q].
Qed.

(** Once somebody has ended the connection of the consumer - [shutdown], a cancelled
    token, an error - its [listen] returns, whatever the order of the steps, unless a
    handler awaits the [shutdown] that waits for it. *)
Theorem C106_stops : forall y0 y, fresh PE CE u y0 -> reach PE CE K (patient CE) u y0 y ->
  ConsumerModel.s_cancel CE (y_c y) = true -> (forall y', ~ inner y y') ->
  (exists b r, In (ConsumerModel.XOver CE b r) (y_ct y)) \/ deadlocked y.
Proof.
  intros y0 y FR R CN NO. destruct (steps CE (y_c y)) as [ST|(l & s' & t & AU & F)].
  2:{ exfalso. destruct (some_ups (sent_up CE t)) as (qs & Q). eapply NO. eapply N_client; eauto. }
  destruct (inv_reach PE CE K u OK y0 y FR R) as (ups & downs & I).
  pose proof (ConsumerTrace2.runs_inv CE _ _ [] _ _ (ConsumerTrace2.start_inv CE) (i_run _ _ _ _ _ _ _ I)) as CI. cbn [app] in CI.
  destruct (still_cancelled CE _ _ CI ST CN) as [OV|DL]; [left|right; exact DL].
  exact (ConsumerTrace2.e_over' _ _ _ (ConsumerTrace2.i_ends _ _ _ CI) OV).
Qed.

(** Conversely nothing happens in a state of rest until somebody outside acts. *)
Theorem C106_rest_is_end : forall y, (y_run y = true -> s_conf (y_p y) = [] /\ y_ups y = []) -> y_downs y = [] -> still CE (y_c y) -> forall y', ~ inner y y'.
Proof.
  intros y PR DN ST y' N. destruct N as [y t s' r qs R C S Q|y n t s' r qs R N S Q|y l s' t qs AU F Q|y n s' t qs l N F Q].
  - exact (C (proj1 (PR R))).
  - rewrite (proj2 (PR R)) in N. cbn [length] in N. lia.
  - rewrite (ST _ AU) in F. discriminate F.
  - rewrite DN in N. cbn [length] in N. lia.
Qed.

(** What this says about calls: when the two cannot go on and neither has ended, every
    call of the consumer has ended, under the conditions of C75. *)
Theorem C106_calls_end : forall y0 y, fresh PE CE u y0 -> reach PE CE K (patient CE) u y0 y ->
  (forall y', ~ inner y y') -> y_run y = true -> ConsumerModel.s_cancel CE (y_c y) = false ->
  serves PE u (y_pt y) -> admitted PE u (y_pt y) -> understood PE CE K -> (forall n, 10 <= n -> uncontrolled PE u (y_pt y) n) ->
  forall a k r x, In (ConsumerModel.XCall CE a k) (y_ct y) -> k = ConsumerModel.KReq CE r x \/ k = ConsumerModel.KBeacon CE r x ->
  (exists res, In (ConsumerModel.XRet CE a res) (y_ct y)) \/ In (ConsumerModel.XDrop CE a) (y_ct y).
Proof.
  intros y0 y FR R NO RN CN SV AD UN NB a k r x C KK.
  destruct (inv_reach PE CE K u OK y0 y FR R) as (ups & downs & I).
  pose proof (ConsumerTrace2.runs_inv CE _ _ [] _ _ (ConsumerTrace2.start_inv CE) (i_run _ _ _ _ _ _ _ I)) as CI. cbn [app] in CI.
  pose proof (ConsumerTrace2.i_tasks _ _ _ CI) as TK. pose proof (ConsumerTrace2.i_ends _ _ _ CI) as EN.
  assert (AL : alive CE (y_ct y)).
  { split; [|split].
    - intros e J. destruct (ConsumerInv.k_api _ _ TK (ConsumerTrace2.e_api _ _ _ EN (ex_intro _ e J))) as (_ & _ & Z). congruence.
    - intros e J. destruct (ConsumerInv.k_msg _ _ TK (ConsumerTrace2.e_msg _ _ _ EN (ex_intro _ e J))) as (_ & Z). congruence.
    - intros b e J. destruct (ConsumerInv.k_over _ _ TK (ConsumerTrace2.e_over _ _ _ EN (ex_intro _ b (ex_intro _ e J)))) as (D & _).
      destruct (ConsumerInv.k_done _ _ TK D) as (Z & _). destruct (ConsumerInv.k_api _ _ TK Z) as (_ & _ & Z'). congruence. }
  destruct (C106_ends y0 y FR R NO) as (PR & [(DN & ST)|[(b & e & J)|(b & kk & _ & Z & _)]]).
  - apply (C75_no_call_left PE CE K u OK y0 y FR R) with (k := k) (r := r) (x := x); auto.
    split; [exact RN|]. split; [apply PR; exact RN|]. split; [exact DN|]. exact (still_idle CE _ ST).
  - elim (proj2 (proj2 AL) _ _ J).
  - pose proof (ConsumerInv.k_got _ _ TK _ Z). congruence.
Qed.
End Statements.

(** ** The consumer alone *)
Section Alone.
Variable CE : ConsumerModel.cenv.
(** Whatever it is given, the consumer by itself makes only finitely many steps, and
    once its connection has been cancelled these steps end its [listen], in whatever
    order they are made, unless a handler awaits the [shutdown] that waits for it.
    (C54 says that they can.) *)
Theorem C106_consumer_no_endless : forall s : ConsumerModel.st CE,
  ~ exists f : nat -> ConsumerModel.st CE, f 0%nat = s /\ forall i, exists l t, automatic CE l /\ ConsumerModel.fire CE l (f i) = Some (f (S i), t).
Proof.
  intros s (f & F0 & H).
  refine (no_chain (fun b a => exists l t, automatic CE l /\ ConsumerModel.fire CE l a = Some (b, t)) s (consumer_acc CE s) f F0 H).
Qed.
Theorem C106_must_stop : forall ls s t, ConsumerModel.runs CE ls (ConsumerModel.start CE) = Some (s, t) -> ConsumerModel.s_cancel CE s = true ->
  (forall l, automatic CE l -> ConsumerModel.fire CE l s = None) ->
  (exists b r, In (ConsumerModel.XOver CE b r) t) \/
  exists a, ConsumerModel.s_hand CE s = Some (Some a) /\ ConsumerModel.s_shut CE s = ConsumerModel.ShGot a.
Proof.
  intros ls s t R CN ST. pose proof (ConsumerTrace2.runs_inv CE _ _ [] _ _ (ConsumerTrace2.start_inv CE) R) as CI. cbn [app] in CI.
  destruct (still_cancelled CE _ _ CI ST CN) as [OV|(a & k & H1 & H2 & _)]; [left|right; eauto].
  exact (ConsumerTrace2.e_over' _ _ _ (ConsumerTrace2.i_ends _ _ _ CI) OV).
Qed.
End Alone.
Print Assumptions C106_no_endless.
Print Assumptions C106_ends.
Print Assumptions C106_comes_to_rest.
Print Assumptions C106_stops.
Print Assumptions C106_rest_is_end.
Print Assumptions C106_calls_end.
Print Assumptions C106_consumer_no_endless.
Print Assumptions C106_must_stop.

(** ** Concrete cases *)
Definition quiet {PE CE} (y : sys PE CE) : bool :=
  match ProducerModel.s_conf PE (y_p _ _ y), y_ups _ _ y, y_downs _ _ y with
  | [], [], [] => forallb (fun l => match ConsumerModel.fire CE l (y_c _ _ y) with None => true | _ => false end) (own_labels CE (y_c _ _ y))
  | _, _, _ => false
  end.
Lemma quiet_stuck PE CE (K : codec PE CE) u y : quiet y = true -> forall y', ~ inner PE CE K u y y'.
Proof.
  unfold quiet. destruct (ProducerModel.s_conf PE (y_p _ _ y)) eqn:SC; [|discriminate]. destruct (y_ups _ _ y) eqn:UP; [|discriminate].
  destruct (y_downs _ _ y) eqn:DN; [|discriminate]. intros H. apply C106_rest_is_end; [auto|exact DN|]. apply still_check. exact H.
Qed.

(** The handshake and the three calls of PropAnswers.v: there is something to do at the
    start, and when the last call has returned nothing happens any more. *)
Example C106_example : compatible fair_server peer mixed /\ fresh _ _ 4 fair /\
  (exists y', inner fair_server peer mixed 4 fair y') /\
  let y := ending settled in
  reach fair_server peer mixed (patient peer) 4 fair y /\ (forall y', ~ inner fair_server peer mixed 4 y y') /\
  y_run _ _ y = true /\ ConsumerModel.s_cancel peer (y_c _ _ y) = false /\ serves fair_server 4 (y_pt _ _ y) /\ admitted fair_server 4 (y_pt _ _ y) /\
  understood fair_server peer mixed /\ (forall n, 10 <= n -> uncontrolled fair_server 4 (y_pt _ _ y) n) /\
  In (ConsumerModel.XCall peer 3 (ConsumerModel.KReq peer 0 2)) (y_ct _ _ y).
Proof.
  split; [apply mixed_compatible|]. split; [apply begin_fresh|]. split.
  { destruct (ProducerModel.step fair_server ProducerModel.VConfirm (y_p _ _ fair)) as [t [s' r]] eqn:S.
    destruct (some_downs fair_server peer mixed (sent_down fair_server 4 t)) as (qs & Q).
    eexists. eapply N_confirm; [reflexivity| |exact S|exact Q]. vm_compute. discriminate. }
  cbv zeta. destruct C75_no_call_left_example as (_ & _ & R & _ & _ & SV & AD & UN & NB & CA).
  split; [exact R|]. split; [apply quiet_stuck; vm_compute; reflexivity|]. split; [vm_compute; reflexivity|]. split; [vm_compute; reflexivity|].
  split; [exact SV|]. split; [exact AD|]. split; [exact UN|]. split; [exact NB|]. exact CA.
Qed.

(** After the handshake the application of the consumer calls [shutdown]; its [listen]
    returns, and so does the call. *)
Definition closing : list (instr peer) :=
  greet ++ map (IClient peer) [ConsumerModel.LCall peer (ConsumerModel.KShutdown peer); ConsumerModel.LAct peer 1 true; ConsumerModel.LApi peer true; ConsumerModel.LShut peer;
    ConsumerModel.LApiCancel peer; ConsumerModel.LMsgCancel peer; ConsumerModel.LClientCancel peer; ConsumerModel.LDone peer; ConsumerModel.LEmit peer; ConsumerModel.LHandled peer;
    ConsumerModel.LEmit peer; ConsumerModel.LHandled peer; ConsumerModel.LOver peer; ConsumerModel.LAct peer 1 true].
Example C106_stops_example : let y := ending closing in
  reach fair_server peer mixed (patient peer) 4 fair y /\ ConsumerModel.s_cancel peer (y_c _ _ y) = true /\ (forall y', ~ inner fair_server peer mixed 4 y y') /\
  ConsumerModel.runs peer (y_ls _ _ y) (ConsumerModel.start peer) = Some (y_c _ _ y, y_ct _ _ y) /\
  (forall l, automatic peer l -> ConsumerModel.fire peer l (y_c _ _ y) = None) /\
  In (ConsumerModel.XOver peer true None) (y_ct _ _ y) /\ In (ConsumerModel.XRet peer 1 (ConsumerModel.RDone peer)) (y_ct _ _ y).
Proof.
  cbv zeta. assert (R : reach fair_server peer mixed (patient peer) 4 fair (ending closing)) by (apply (after_reach mixed 4 true closing fair); vm_compute; reflexivity).
  split; [exact R|]. split; [vm_compute; reflexivity|]. split; [apply quiet_stuck; vm_compute; reflexivity|].
  destruct (inv_reach fair_server peer mixed 4 mixed_compatible fair _ (begin_fresh _ _ _ _) R) as (ups & downs & I).
  split; [apply I|]. split; [apply still_check; vm_compute; reflexivity|]. split; [apply (nth_error_In _ 19)|apply (nth_error_In _ 20)]; vm_compute; reflexivity.
Qed.
