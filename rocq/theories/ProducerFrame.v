(** Which consumers a step of the producer concerns; discredited consumers; the
    segmentation of received data. *)
From Coq Require Import List Arith NArith Bool Lia.
From Verif Require Import Bytes WireModel FrameModel FrameProofs ProducerModel ProducerProofs ProducerInv ProducerMore.
Import ListNotations.
Open Scope N_scope.

Section Frame.
Variable E : env.

Notation out := (out E).
Notation st := (st E).
Notation P := (P E).
Notation X := (e_user E).

(** the consumer an output belongs to; broadcasts and errors belong to nobody *)
Definition about (o : out) : option uuid :=
  match o with
  | OConnected _ u _ _ | ODisconnected _ u _ _ | OHandle _ u _ _ | OCall _ u _ _ _ _
  | OBeacon _ u _ _ _ _ | ODisc _ u _ | OSetKey _ u | OSetAssigned _ u => Some u
  | OSend _ u _ p _ => if is_answer p then Some u else None
  | _ => None
  end.

(** [u]'s connection record is the only one that changes *)
Definition frame {A} (u : uuid) (m : P A) : Prop :=
  forall s, wp E m s (fun t s' _ =>
    (forall v, v <> u -> find E v (s_tab E s') = find E v (s_tab E s)) /\
    (forall o v, In o t -> about o = Some v -> v = u)).

Lemma frame_bind {A B} u (m : P A) (f : A -> P B) :
  frame u m -> (forall a, frame u (f a)) -> frame u (bindp E m f).
Proof.
  intros Hm Hf s. apply wp_bind. eapply wp_mono; [apply Hm|]. cbv beta.
  intros t s' r [H1 H2]. destruct r as [a|e|]; auto.
  eapply wp_mono; [apply Hf|]. cbv beta. intros t2 s2 r2 [H3 H4]. split.
  - intros v Hv. rewrite H3, H1; auto.
  - intros o v Ho. apply in_app_or in Ho. destruct Ho; eauto.
Qed.

Lemma quiet_about o : quiet E o = true -> about o = None.
Proof. destruct o; cbn; try discriminate; auto. destruct (is_answer p); [discriminate|auto]. Qed.

Lemma frame_calm {A} u (m : P A) : calm E m -> frame u m.
Proof.
  intros H s. eapply wp_mono; [apply H|]. intros t s' r (Ht & H1 & _). rewrite H1. split; auto.
  intros o v Ho Ha. eapply forallb_forall in Ht; [|exact Ho]. rewrite quiet_about in Ha by auto. discriminate.
Qed.

Lemma frame_emit u o : (forall v, about o = Some v -> v = u) -> frame u (emit E o).
Proof. intros H s. unfold wp, emit. cbn. split; auto. intros x v [<-|[]]. auto. Qed.

Lemma frame_upd u f : frame u (upd E u f).
Proof.
  intros s. unfold wp, upd. destruct (find E u (s_tab E s)); cbn; split; try tauto.
  intros v Hv. apply find_put_other. auto.
Qed.

Lemma frame_ret {A} u (a : A) : frame u (ret E a).
Proof. apply frame_calm, calm_ret. Qed.

Lemma frame_send u seq p : frame u (send E u seq p).
Proof.
  apply frame_bind; [apply frame_calm, calm_world|]. intros ok.
  apply frame_bind; [|intros; apply frame_ret]. apply frame_emit. cbn. destruct (is_answer p); congruence.
Qed.

Lemma frame_pack_send u seq p : frame u (pack_send E u seq p).
Proof.
  apply frame_bind; [apply frame_calm, calm_try_pack|]. intros [|]; auto using frame_send, frame_ret.
Qed.

Lemma frame_disconnect u : frame u (disconnect E u).
Proof.
  apply frame_bind; [apply frame_calm, calm_look|]. intros [c|]; [|apply frame_ret].
  destruct (c_disc E c); [apply frame_ret|].
  apply frame_bind; [apply frame_upd|]. intros _.
  apply frame_bind; [apply frame_calm, calm_world|]. intros ok.
  apply frame_bind; [apply frame_emit; cbn; congruence|]. intros _.
  destruct ok; [apply frame_ret|apply frame_calm, calm_stop].
Qed.

Lemma frame_ident_err u e : frame u (bindp E (ident_at E u) (fun i => emit_error E e (Some u) i)).
Proof. apply frame_bind; [apply frame_calm, calm_ident_at|]. intros i. apply frame_calm, calm_emit_error. Qed.

Lemma frame_expel u e : frame u (expel E u e).
Proof. apply frame_bind; [apply frame_disconnect|]. intros _. apply frame_ident_err. Qed.

Lemma frame_responsing u : frame u (responsing_err E u).
Proof.
  apply frame_bind; [destruct (e_cs E); auto using frame_ret, frame_disconnect|]. intros _.
  destruct (e_cs E); auto using frame_ret, frame_ident_err.
Qed.

Lemma frame_not_assigned u : frame u (not_assigned E u).
Proof.
  apply frame_bind; [destruct (e_is E); auto using frame_ret, frame_disconnect|]. intros _.
  destruct (e_is E); auto using frame_ret, frame_ident_err.
Qed.

Lemma frame_process_request u r i seq m : frame u (process_request E u r i seq m).
Proof.
  apply frame_bind; [apply frame_calm, calm_get_tab|]. intros t.
  apply frame_bind; [apply frame_calm, calm_world|]. intros res.
  apply frame_bind; [apply frame_emit; cbn; congruence|]. intros _.
  apply frame_bind.
  { apply frame_calm. destruct res as [x|n x bs]; [apply calm_ret|].
    destruct (Nat.ltb 1 (length (e_requests E r))); [|apply calm_ret].
    apply calm_bind; [apply calm_pack_all|]. intros ok. apply calm_ret. }
  intros [[x l]|]; [|apply frame_ret].
  apply frame_bind; [apply frame_pack_send|]. intros [|]; [|apply frame_ret].
  apply frame_calm. apply calm_bind; [apply calm_broadcast_all|]. intros _.
  apply calm_bind; [apply calm_deferred|]. intros _. apply calm_ret.
Qed.

Lemma frame_process_beacon u b i seq m : frame u (process_beacon E u b i seq m).
Proof.
  apply frame_bind; [apply frame_calm, calm_get_tab|]. intros t.
  apply frame_bind; [apply frame_calm, calm_world|]. intros res.
  apply frame_bind; [apply frame_emit; cbn; congruence|]. intros _.
  destruct res; [|apply frame_ret].
  apply frame_bind; [apply frame_pack_send|]. intros [|]; [|apply frame_ret].
  apply frame_calm. apply calm_bind; [apply calm_deferred|]. intros _. apply calm_ret.
Qed.

Lemma frame_dispatch u c h m : frame u (dispatch E u c h m).
Proof.
  unfold dispatch. destruct (e_request E m).
  - apply frame_bind; [apply frame_process_request|]. intros [|]; [apply frame_ret|apply frame_responsing].
  - destruct (e_beacon E m); [|apply frame_ret].
    apply frame_bind; [apply frame_process_beacon|]. intros [|]; [apply frame_ret|].
    apply frame_calm, calm_emit_error.
Qed.

Lemma frame_handle u asg hk h m c : frame u (handle E u asg hk h m c).
Proof.
  unfold handle.
  assert (O : frame u (match e_hash E m with
    | Some pw =>
      bindp E (if hash_valid E pw then upd E u (set_hash E) else ret E tt) (fun _ =>
      bindp E (pack_send E u (h_seq h) (PHash (hash_valid E pw))) (fun ok =>
      bindp E (if ok then ret E tt else responsing_err E u) (fun _ =>
      if hash_valid E pw then ret E tt else expel E u (ENoKey u))))
    | None =>
      if negb (c_hash E c) then expel E u (ENoKey u)
      else if negb hk then expel E u (ENoKey u)
      else if negb asg && match e_is E with IIgnore => false | _ => true end then not_assigned E u
      else dispatch E u c h m
    end)).
  { destruct (e_hash E m) as [pw|].
    - apply frame_bind; [destruct (hash_valid E pw); auto using frame_upd, frame_ret|]. intros _.
      apply frame_bind; [apply frame_pack_send|]. intros ok.
      apply frame_bind; [destruct ok; auto using frame_ret, frame_responsing|]. intros _.
      destruct (hash_valid E pw); auto using frame_ret, frame_expel.
    - destruct (negb (c_hash E c)); [apply frame_expel|]. destruct (negb hk); [apply frame_expel|].
      destruct (negb asg && _); [apply frame_not_assigned|apply frame_dispatch]. }
  destruct (e_self E m); [|exact O]. destruct (c_hash E c); [exact O|].
  apply frame_bind; [apply frame_upd|]. intros _. apply frame_bind; [apply frame_pack_send|].
  intros [|]; auto using frame_ret, frame_responsing.
Qed.

Lemma frame_loop u asg hk ms : frame u (loop E u asg hk ms).
Proof.
  induction ms as [|[h m] ms IH]; cbn [loop]; [apply frame_ret|].
  apply frame_bind; [apply frame_calm, calm_look|]. intros [c|]; [|apply frame_ret].
  apply frame_bind; [apply frame_emit; cbn; congruence|]. intros _.
  apply frame_bind; [apply frame_handle|]. intros _. exact IH.
Qed.

Lemma frame_received u data : frame u (process_received_data E u data).
Proof.
  apply frame_bind; [apply frame_calm, calm_look|]. intros [c|]; [|apply frame_responsing].
  destruct (negb (c_conf E c)); [apply frame_expel|].
  destruct (c_disc E c); [apply frame_ret|].
  destruct (chunk (e_get E) (e_sig E) (c_buf E c) data) as [o b].
  destruct o.
  - apply frame_bind; [apply frame_upd|]. intros _. apply frame_loop.
  - apply frame_bind; [apply frame_upd|]. intros _. apply frame_responsing.
  - intros s. unfold wp. cbn. split; [auto|tauto].
Qed.

Lemma frame_add u : frame u (add_connection E u).
Proof.
  apply frame_bind; [apply frame_calm, calm_look|]. intros [c|]; [apply frame_calm, calm_stop|].
  apply frame_bind; [apply frame_calm, calm_get_tab|]. intros t.
  apply frame_bind; [apply frame_calm, calm_world|]. intros bs.
  apply frame_bind; [apply frame_emit; cbn; congruence|]. intros _.
  apply frame_bind; [apply frame_calm, calm_emit_event|]. intros _.
  intros s. unfold wp. cbn. split; [|tauto]. intros v Hv. destruct (N.eqb_spec v u); [congruence|auto].
Qed.

Lemma frame_remove u : frame u (remove_connection E u).
Proof.
  apply frame_bind; [apply frame_calm, calm_look|]. intros [c|]; [|apply frame_ret].
  apply frame_bind.
  { intros s. unfold wp. cbn. split; [|tauto]. intros v Hv. apply find_drop_other. auto. }
  intros _.
  apply frame_bind; [apply frame_calm, calm_get_tab|]. intros t.
  apply frame_bind; [apply frame_calm, calm_world|]. intros bs.
  apply frame_bind; [apply frame_emit; cbn; congruence|]. intros _.
  apply frame_bind; [apply frame_calm, calm_emit_event|]. intros _. apply frame_ret.
Qed.

(** the consumer an event concerns; [None] for events about nobody *)
Definition target (s : st) (e : event) : option uuid :=
  match e with
  | VConnected u | VDisconnected u | VReceived u _ | VKey u _ _ | VAssign u _ _ => Some u
  | VConfirm => match s_conf E s with u :: _ => Some u | [] => None end
  | _ => None
  end.

Lemma frame_one u e s : (forall v, target s e = Some v -> v = u) ->
  wp E (step E e) s (fun t s' _ =>
    (forall v, v <> u -> find E v (s_tab E s') = find E v (s_tab E s)) /\
    (forall o v, In o t -> about o = Some v -> v = u)).
Proof.
  intros Ht.
  assert (G : forall (m : P unit) (b : bool), frame u m -> frame u (bindp E m (fun _ => ret E b))).
  { intros m b H. apply frame_bind; auto. intros _. apply frame_ret. }
  assert (Hnc : e <> VConfirm -> frame u (step E e) ->
    wp E (step E e) s (fun t s' _ =>
    (forall v, v <> u -> find E v (s_tab E s') = find E v (s_tab E s)) /\
    (forall o v, In o t -> about o = Some v -> v = u))) by (intros _ H; apply H).
  destruct e; cbn [target] in Ht; try rewrite (Ht _ eq_refl) in *.
  - apply Hnc; [discriminate|]. apply frame_bind; [apply frame_calm, calm_world|]. intros ok.
    apply frame_bind; [apply frame_emit; cbn; congruence|]. intros _.
    destruct ok; [apply frame_ret|apply frame_calm, calm_stop].
  - apply Hnc; [discriminate|]. apply frame_ret.
  - apply Hnc; [discriminate|]. apply G, frame_add.
  - apply Hnc; [discriminate|]. apply G, frame_remove.
  - apply Hnc; [discriminate|]. apply G, frame_received.
  - apply Hnc; [discriminate|]. apply frame_bind; [apply frame_calm, calm_opt_ident|]. intros i.
    apply G, frame_calm, calm_emit_error.
  - apply Hnc; [discriminate|]. apply frame_bind; [apply frame_calm, calm_opt_ident|]. intros i.
    apply G, frame_calm, calm_emit_error.
  - apply Hnc; [discriminate|]. apply G, frame_calm, calm_emit_error.
  - apply Hnc; [discriminate|]. apply frame_bind; [apply frame_calm, calm_get_tab|]. intros t.
    apply frame_bind; [apply frame_calm, calm_world|]. intros bs.
    apply frame_bind; [apply frame_emit; cbn; congruence|]. intros _.
    apply frame_bind; [apply frame_calm, calm_emit_event|]. intros o. apply frame_ret.
  - apply Hnc; [discriminate|]. apply frame_bind; [apply frame_calm, calm_look|]. intros [c|].
    + apply frame_bind; [apply frame_upd|]. intros _. apply G, frame_emit. cbn. congruence.
    + apply G, frame_calm, calm_emit_error.
  - apply Hnc; [discriminate|]. apply frame_bind; [apply frame_calm, calm_look|]. intros [c|].
    + apply frame_bind; [apply frame_upd|]. intros _. apply G, frame_emit. cbn. congruence.
    + apply G, frame_calm, calm_emit_error.
  - clear Hnc. cbn [step]. apply wp_bind. unfold confirm, wp at 1.
    destruct (s_conf E s) as [|w q]; [unfold wp; cbn; split; [auto|tauto]|].
    rewrite (Ht w eq_refl) in *. clear Ht w.
    set (s1 := mkSt E _ _ q). assert (T1 : s_tab E s1 = s_tab E s) by reflexivity. clearbody s1.
    match goal with |- context [bindp E (look E u) ?k s1] =>
      assert (F : frame u (bindp E (look E u) k)) end.
    { apply frame_bind; [apply frame_calm, calm_look|]. intros [c|]; [|apply frame_calm, calm_emit_error].
      apply frame_bind; [apply frame_upd|]. intros _.
      apply frame_bind; [apply frame_calm, calm_try_pack|]. intros [|]; [|apply frame_calm, calm_stop].
      apply frame_bind; [apply frame_send|]. intros [|]; [apply frame_ret|apply frame_calm, calm_stop]. }
    specialize (F s1). unfold wp in F. destruct F as [F1 F2]. rewrite T1 in F1.
    destruct (snd (snd _)); [|auto|auto].
    unfold wp. cbn [ret fst snd]. rewrite app_nil_r. auto.
  - apply Hnc; [discriminate|]. apply frame_ret.
Qed.

(** ** Discredited consumers *)

Lemma wp_look u s (Q : list out -> st -> pres (option (consumer E)) -> Prop) :
  Q [] s (PGo (find E u (s_tab E s))) -> wp E (look E u) s Q.
Proof. auto. Qed.


(** [u] is gone, or the producer has asked for its disconnect *)
Definition out_of_service (u : uuid) (s : st) : Prop :=
  match find E u (s_tab E s) with Some c => c_disc E c = true | None => True end.

(** the message of a consumer is processed, reaches a handler or is answered *)
Definition serves (u : uuid) (o : out) : Prop :=
  match o with
  | OHandle _ v _ _ | OCall _ v _ _ _ _ | OBeacon _ v _ _ _ _ => v = u
  | OSend _ v _ p _ => v = u /\ is_answer p = true
  | _ => False
  end.

Definition off {A} (u : uuid) (m : P A) : Prop :=
  forall s, out_of_service u s ->
    wp E m s (fun t s' _ => out_of_service u s' /\ forall o, In o t -> ~ serves u o).

Lemma off_bind {A B} u (m : P A) (f : A -> P B) :
  off u m -> (forall a, off u (f a)) -> off u (bindp E m f).
Proof.
  intros Hm Hf s Hs. apply wp_bind. eapply wp_mono; [apply Hm; exact Hs|]. cbv beta.
  intros t s' r [H1 H2]. destruct r as [a|e|]; auto.
  eapply wp_mono; [apply Hf; exact H1|]. cbv beta. intros t2 s2 r2 [H3 H4]. split; auto.
  intros o Ho. apply in_app_or in Ho. destruct Ho; auto.
Qed.

Lemma quiet_serves u o : quiet E o = true -> ~ serves u o.
Proof. destruct o; cbn; try discriminate; auto. intros H [_ H2]. rewrite H2 in H. discriminate. Qed.

Lemma off_calm {A} u (m : P A) : calm E m -> off u m.
Proof.
  intros H s Hs. eapply wp_mono; [apply H|]. intros t s' r (Ht & H1 & _).
  split; [unfold out_of_service; rewrite H1; exact Hs|].
  intros o Ho. apply quiet_serves. eapply forallb_forall in Ht; eauto.
Qed.

Lemma off_ret {A} u (a : A) : off u (ret E a).
Proof. apply off_calm, calm_ret. Qed.

Lemma off_emit u o : ~ serves u o -> off u (emit E o).
Proof. intros H s Hs. unfold wp, emit. cbn. split; auto. intros x [<-|[]]. auto. Qed.

Lemma off_upd u v f : (forall c, c_disc E c = true -> c_disc E (f c) = true) -> off u (upd E v f).
Proof.
  intros Hf s Hs. unfold wp, upd. destruct (find E v (s_tab E s)) as [c|] eqn:F; cbn; split; try tauto.
  unfold out_of_service in *. cbn [s_tab]. destruct (N.eq_dec v u) as [->|Hn].
  - rewrite (find_put_same E u (f c) _ c F). rewrite F in Hs. auto.
  - rewrite find_put_other by auto. exact Hs.
Qed.

Lemma off_disconnect u : off u (disconnect E u).
Proof.
  intros s Hs. unfold disconnect. apply wp_bind. apply wp_look. cbn [app].
  unfold out_of_service in Hs. destruct (find E u (s_tab E s)) as [c|] eqn:F.
  - rewrite Hs. apply off_ret. unfold out_of_service. rewrite F. exact Hs.
  - apply off_ret. unfold out_of_service. rewrite F. exact I.
Qed.

Lemma off_ident_err u e : off u (bindp E (ident_at E u) (fun i => emit_error E e (Some u) i)).
Proof. apply off_bind; [apply off_calm, calm_ident_at|]. intros i. apply off_calm, calm_emit_error. Qed.

Lemma off_responsing u : off u (responsing_err E u).
Proof.
  apply off_bind; [destruct (e_cs E); auto using off_ret, off_disconnect|]. intros _.
  destruct (e_cs E); auto using off_ret, off_ident_err.
Qed.

Lemma off_expel u e : off u (expel E u e).
Proof. apply off_bind; [apply off_disconnect|]. intros _. apply off_ident_err. Qed.

Lemma off_received u data : off u (process_received_data E u data).
Proof.
  intros s Hs. unfold process_received_data. apply wp_bind. apply wp_look. cbn [app].
  destruct (find E u (s_tab E s)) as [c|] eqn:F; [|apply off_responsing; exact Hs].
  destruct (negb (c_conf E c)); [apply off_expel; exact Hs|].
  unfold out_of_service in Hs. rewrite F in Hs. rewrite Hs. apply off_ret.
  unfold out_of_service. rewrite F. exact Hs.
Qed.

Lemma off_remove u : forall s, NoDup (map fst (s_tab E s)) -> out_of_service u s ->
  wp E (remove_connection E u) s (fun t s' _ => out_of_service u s' /\ forall o, In o t -> ~ serves u o).
Proof.
  intros s Nd Hs. unfold remove_connection. apply wp_bind. apply wp_look. cbn [app].
  destruct (find E u (s_tab E s)) as [c|] eqn:F; [|apply off_ret; exact Hs].
  apply wp_bind. unfold wp at 1. cbn [fst snd app].
  match goal with |- wp E ?m ?s1 _ => assert (H : off u m) end.
  { apply off_bind; [apply off_calm, calm_get_tab|]. intros t.
    apply off_bind; [apply off_calm, calm_world|]. intros bs.
    apply off_bind; [apply off_emit; cbn; tauto|]. intros _.
    apply off_bind; [apply off_calm, calm_emit_event|]. intros _. apply off_ret. }
  apply H. unfold out_of_service. cbn [s_tab]. rewrite find_drop_same by auto. exact I.
Qed.

Lemma frame_off u e s : out_of_service u s -> (forall v, target s e = Some v -> v <> u) ->
  wp E (step E e) s (fun t s' _ => out_of_service u s' /\ forall o, In o t -> ~ serves u o).
Proof.
  intros Hs Ht.
  assert (exists w, w <> u /\ forall v, target s e = Some v -> v = w) as (w & Hw & Hw2).
  { destruct (target s e) as [w|]; [exists w; split; [auto|congruence]|].
    exists (u + 1). split; [lia|discriminate]. }
  eapply wp_mono; [apply (frame_one w e s Hw2)|]. cbv beta. intros t s' r [H1 H2]. split.
  - unfold out_of_service. rewrite H1 by auto. exact Hs.
  - intros o Ho Hsv. apply Hw. symmetry.
    apply (H2 o u Ho). destruct o; cbn in Hsv |- *; try tauto; try (subst; reflexivity).
    destruct Hsv as [-> ->]. reflexivity.
Qed.

Lemma off_step u e s : NoDup (map fst (s_tab E s)) -> out_of_service u s -> e <> VConnected u ->
  wp E (step E e) s (fun t s' _ => out_of_service u s' /\ forall o, In o t -> ~ serves u o).
Proof.
  intros Nd Hs Hne.
  destruct (target s e) as [w|] eqn:Ht.
  2:{ apply frame_off; auto. congruence. }
  destruct (N.eq_dec w u) as [->|Hw]; [|apply frame_off; [auto|congruence]].
  assert (G : forall (m : P unit) (b : bool), 
    wp E m s (fun t s' _ => out_of_service u s' /\ forall o, In o t -> ~ serves u o) ->
    wp E (bindp E m (fun _ => ret E b)) s
      (fun t s' _ => out_of_service u s' /\ forall o, In o t -> ~ serves u o)).
  { intros m b H. apply wp_bind. eapply wp_mono; [exact H|]. cbv beta. intros t s' r [H1 H2].
    destruct r; auto. unfold wp. cbn [ret fst snd]. rewrite app_nil_r. auto. }
  destruct e; cbn [target] in Ht; try discriminate; try (injection Ht as ->).
  - congruence.
  - apply G, off_remove; auto.
  - apply G, off_received; auto.
  - assert (O : off u (step E (VKey u k ov))); [|exact (O s Hs)].
    apply off_bind; [apply off_calm, calm_look|]. intros [c|].
    + apply off_bind; [apply off_upd; auto|]. intros _.
      apply off_bind; [apply off_emit; cbn; tauto|]. intros _. apply off_ret.
    + apply off_bind; [apply off_calm, calm_emit_error|]. intros _. apply off_ret.
  - assert (O : off u (step E (VAssign u k ov))); [|exact (O s Hs)].
    apply off_bind; [apply off_calm, calm_look|]. intros [c|].
    + apply off_bind; [apply off_upd; auto|]. intros _.
      apply off_bind; [apply off_emit; cbn; tauto|]. intros _. apply off_ret.
    + apply off_bind; [apply off_calm, calm_emit_error|]. intros _. apply off_ret.
  - cbn [step]. apply G. unfold confirm, wp. destruct (s_conf E s) as [|w q]; [discriminate|].
    injection Ht as ->.
    match goal with |- context [bindp E (look E u) ?k _] => assert (F : off u (bindp E (look E u) k)) end.
    { apply off_bind; [apply off_calm, calm_look|]. intros [c|]; [|apply off_calm, calm_emit_error].
      apply off_bind; [apply off_upd; auto|]. intros _.
      apply off_bind; [apply off_calm, calm_try_pack|]. intros [|]; [|apply off_calm, calm_stop].
      apply off_bind; [|intros [|]; [apply off_ret|apply off_calm, calm_stop]].
      apply off_calm, calm_send. reflexivity. }
    apply (F (mkSt E (s_w E s) (s_tab E s) q)). exact Hs.
Qed.

End Frame.
