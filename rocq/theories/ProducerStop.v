(** What can end the listener, and the order in which messages are processed. *)
From Coq Require Import List Arith NArith Bool Lia.
From Verif Require Import Bytes WireModel FrameModel ProducerModel ProducerProofs ProducerMore ProducerSeg.
Import ListNotations.
Open Scope N_scope.

Section Stop.
Variable E : env.

Notation out := (out E).
Notation st := (st E).
Notation P := (P E).

(** ** Causes of an end of the listener *)

(** what the last action was when the listener ended with [e] *)
Definition cause (e : perr) (t : list out) : Prop :=
  match e with
  | EServer => exists t0 u, t = t0 ++ [ODisc E u false] \/ t = t0 ++ [OSend E u 0 PConfirm false]
  | EEmitter => exists t0, t = t0 ++ [OReady E] \/ exists e u, t = t0 ++ [OError E e u]
  | EProtocol u => exists t0, t = t0 ++ [OUnpacked E (Some u) 0 PConfirm]
  | _ => False
  end.

Lemma cause_app e t0 t : cause e t -> cause e (t0 ++ t).
Proof.
  destruct e; cbn; try tauto.
  - intros (t1 & u & H). exists (t0 ++ t1), u. destruct H as [->| ->]; rewrite app_assoc; auto.
  - intros (t1 & H). exists (t0 ++ t1). destruct H as [->|(e & u & ->)]; rewrite app_assoc; eauto.
  - intros (t1 & ->). exists (t0 ++ t1). rewrite app_assoc. auto.
Qed.

Definition causes {A} (m : P A) : Prop :=
  forall s, wp E m s (fun t _ r =>
    match r with PGo _ => True | PStop e => cause e t | PPanic => False end).

Lemma causes_bind {A B} (m : P A) (f : A -> P B) :
  causes m -> (forall a, causes (f a)) -> causes (bindp E m f).
Proof.
  intros Hm Hf s. apply wp_bind. eapply wp_mono; [apply Hm|]. cbv beta. intros t s' [a|e|] H; auto.
  eapply wp_mono; [apply Hf|]. cbv beta. intros t2 s2 [b|e|] H2; auto. apply cause_app. auto.
Qed.

Definition goes {A} (m : P A) : Prop := forall s, exists a, snd (snd (m s)) = PGo a.
Lemma causes_goes {A} (m : P A) : goes m -> causes m.
Proof. intros H s. destruct (H s) as [a Ha]. unfold wp. rewrite Ha. exact I. Qed.

Lemma causes_ret {A} (a : A) : causes (ret E a).
Proof. apply causes_goes. intros s. exists a. reflexivity. Qed.
Lemma causes_emit o : causes (emit E o).
Proof. apply causes_goes. intros s. exists tt. reflexivity. Qed.
Lemma causes_world {A} (f : _ -> _ * A) : causes (world E f).
Proof. apply causes_goes. intros s. unfold world. destruct (f (s_w E s)) as [w a]. exists a. reflexivity. Qed.
Lemma causes_get_tab : causes (get_tab E).
Proof. apply causes_goes. intros s. eexists. reflexivity. Qed.
Lemma causes_look u : causes (look E u).
Proof. apply causes_goes. intros s. eexists. reflexivity. Qed.
Lemma causes_upd u f : causes (upd E u f).
Proof. apply causes_goes. intros s. unfold upd. destruct (find E u (s_tab E s)); exists tt; reflexivity. Qed.
Lemma causes_put (g : st -> st) : causes (fun s => ([], (g s, PGo tt))).
Proof. apply causes_goes. intros s. exists tt. reflexivity. Qed.

(** an action followed by the end of the listener when it failed *)
Lemma causes_fail {A} o (ok : bool) (a : A) e :
  (ok = false -> cause e [o]) ->
  causes (bindp E (emit E o) (fun _ => if ok then ret E a else stop E e)).
Proof. intros H s. unfold wp. destruct ok; cbn; auto. Qed.

Local Ltac cz := repeat first
  [ progress intros | assumption
  | apply causes_ret | apply causes_emit | apply causes_world | apply causes_get_tab
  | apply causes_look | apply causes_upd | apply causes_put
  | apply causes_bind
  | match goal with |- causes (match ?x with _ => _ end) => destruct x end ].

Lemma causes_emit_error e u i : causes (emit_error E e u i).
Proof.
  unfold emit_error. apply causes_bind; [cz|]. intros ok. apply causes_fail. intros ->. cbn.
  exists []. right. exists e, u. reflexivity.
Qed.
Lemma causes_disconnect u : causes (disconnect E u).
Proof.
  unfold disconnect. apply causes_bind; [cz|]. intros [c|]; [|cz]. destruct (c_disc E c); [cz|].
  apply causes_bind; [cz|]. intros _. apply causes_bind; [cz|]. intros ok. apply causes_fail. intros ->. cbn.
  exists [], u. left. reflexivity.
Qed.
Lemma causes_ident_at u : causes (ident_at E u).
Proof. unfold ident_at. cz. Qed.
Lemma causes_try_pack u seq p : causes (try_pack E u seq p).
Proof. unfold try_pack. cz. Qed.
Lemma causes_send u seq p : causes (send E u seq p).
Proof. unfold send. cz. Qed.
Lemma causes_pack_send u seq p : causes (pack_send E u seq p).
Proof. unfold pack_send. apply causes_bind; [apply causes_try_pack|]. intros [|]; [apply causes_send|cz]. Qed.
Lemma causes_broadcast us x : causes (broadcast E us x).
Proof.
  induction us; cbn [broadcast]; [cz|]. apply causes_bind; [apply causes_send|]. intros. assumption.
Qed.
Lemma causes_broadcast_all l : causes (broadcast_all E l).
Proof.
  induction l as [|[us x] l IH]; cbn [broadcast_all]; [cz|]. apply causes_bind; [apply causes_broadcast|auto].
Qed.
Lemma causes_pack_all u l : causes (pack_all E u l).
Proof.
  induction l as [|[us x] l IH]; cbn [pack_all]; [cz|]. apply causes_bind; [apply causes_try_pack|].
  intros [|]; [assumption|cz].
Qed.
Lemma causes_deferred : causes (deferred E).
Proof. unfold deferred. cz. Qed.
Lemma causes_emit_event ds bs : causes (emit_event E ds bs).
Proof.
  unfold emit_event. destruct bs; [|cz]. apply causes_bind; [apply causes_pack_all|]. intros [|]; [|cz].
  apply causes_bind; [apply causes_broadcast_all|]. intros _.
  apply causes_bind; [apply causes_deferred|]. cz.
Qed.

Local Ltac cy := repeat first
  [ apply causes_emit_error | apply causes_disconnect | apply causes_ident_at | apply causes_try_pack
  | apply causes_send | apply causes_pack_send | apply causes_broadcast_all | apply causes_pack_all
  | apply causes_deferred | apply causes_emit_event | apply causes_ret ].

Lemma causes_expel u e : causes (expel E u e).
Proof. unfold expel. apply causes_bind; [cy|]. intros. apply causes_bind; [cy|]. intros. cy. Qed.
Lemma causes_responsing u : causes (responsing_err E u).
Proof.
  unfold responsing_err. apply causes_bind.
  - destruct (e_cs E); cy.
  - intros. destruct (e_cs E); try apply causes_ret; (apply causes_bind; [apply causes_ident_at|intros; apply causes_emit_error]).
Qed.
Lemma causes_not_assigned u : causes (not_assigned E u).
Proof.
  unfold not_assigned. apply causes_bind.
  - destruct (e_is E); cy.
  - intros. destruct (e_is E); try apply causes_ret; (apply causes_bind; [apply causes_ident_at|intros; apply causes_emit_error]).
Qed.
Lemma causes_request u r i seq m : causes (process_request E u r i seq m).
Proof.
  unfold process_request. apply causes_bind; [cz|]. intros t. apply causes_bind; [cz|]. intros res.
  apply causes_bind; [cz|]. intros _. apply causes_bind.
  - destruct res; [cz|]. destruct (Nat.ltb _ _); [|cz]. apply causes_bind; [apply causes_pack_all|]. cz.
  - intros [[x l]|]; [|cz]. apply causes_bind; [apply causes_pack_send|]. intros [|]; [|cz].
    apply causes_bind; [apply causes_broadcast_all|]. intros. apply causes_bind; [apply causes_deferred|]. cz.
Qed.
Lemma causes_beacon u b i seq m : causes (process_beacon E u b i seq m).
Proof.
  unfold process_beacon. apply causes_bind; [cz|]. intros t. apply causes_bind; [cz|]. intros ok.
  apply causes_bind; [cz|]. intros _. destruct ok; [|cz].
  apply causes_bind; [apply causes_pack_send|]. intros [|]; [|cz].
  apply causes_bind; [apply causes_deferred|]. cz.
Qed.
Lemma causes_dispatch u c h m : causes (dispatch E u c h m).
Proof.
  unfold dispatch. destruct (e_request E m).
  - apply causes_bind; [apply causes_request|]. intros [|]; [cz|apply causes_responsing].
  - destruct (e_beacon E m); [|cz]. apply causes_bind; [apply causes_beacon|].
    intros [|]; [cz|apply causes_emit_error].
Qed.
Lemma causes_handle u asg hk h m c : causes (handle E u asg hk h m c).
Proof.
  unfold handle.
  match goal with |- causes (match e_self E m with Some k => if _ then ?x else _ | None => _ end) =>
    assert (O : causes x) end.
  { destruct (e_hash E m) as [pw|].
    - apply causes_bind; [destruct (hash_valid E pw); cz|]. intros _.
      apply causes_bind; [apply causes_pack_send|]. intros ok.
      apply causes_bind; [destruct ok; auto using causes_ret, causes_responsing|]. intros _.
      destruct (hash_valid E pw); auto using causes_ret, causes_expel.
    - destruct (negb (c_hash E c)); [apply causes_expel|]. destruct (negb hk); [apply causes_expel|].
      destruct (negb asg && _); [apply causes_not_assigned|apply causes_dispatch]. }
  destruct (e_self E m); [|exact O]. destruct (c_hash E c); [exact O|].
  apply causes_bind; [cz|]. intros _. apply causes_bind; [apply causes_pack_send|].
  intros [|]; auto using causes_ret, causes_responsing.
Qed.
Lemma causes_loop u asg hk ms : causes (loop E u asg hk ms).
Proof.
  induction ms as [|[h m] ms IH]; cbn [loop]; [cz|]. apply causes_bind; [cz|]. intros [c|]; [|cz].
  apply causes_bind; [cz|]. intros _. apply causes_bind; [apply causes_handle|]. auto.
Qed.
Lemma causes_remove u : causes (remove_connection E u).
Proof.
  unfold remove_connection. apply causes_bind; [cz|]. intros [c|]; [|cz].
  apply causes_bind; [apply (causes_put (fun s => mkSt E (s_w E s) (drop E u (s_tab E s)) (s_conf E s)))|].
  intros _. apply causes_bind; [cz|]. intros t. apply causes_bind; [cz|]. intros bs.
  apply causes_bind; [cz|]. intros _. apply causes_bind; [apply causes_emit_event|]. cz.
Qed.
Lemma causes_confirm : causes (confirm E).
Proof.
  intros s. unfold confirm, wp. destruct (s_conf E s) as [|u q]; [exact I|].
  match goal with |- context [bindp E (look E u) ?k _] => assert (F : causes (bindp E (look E u) k)) end.
  { apply causes_bind; [cz|]. intros [c|]; [|apply causes_emit_error].
    apply causes_bind; [cz|]. intros _. clear s c.
    intros s. apply wp_bind. eapply wp_mono; [apply wp_try_pack|]. cbv beta.
    intros t s1 r (_ & _ & [[-> ->]|[-> ->]]).
    - apply wp_bind. eapply wp_mono; [apply wp_send|]. cbv beta.
      intros t s2 r (_ & _ & ok & -> & ->). destruct ok; unfold wp; cbn; auto.
      exists [], u. right. reflexivity.
    - unfold wp. cbn. exists []. reflexivity. }
  apply F.
Qed.

(** The listener ends with an error only for these reasons; it panics only while
    parsing received bytes. *)
Theorem step_ends e s t s' r : step E e s = (t, (s', r)) ->
  match r with
  | PGo _ => True
  | PStop x => cause x t \/
      (exists u c, x = EAddConsumer u /\ e = VConnected u /\ find E u (s_tab E s) = Some c /\
         t = [] /\ s' = s)
  | PPanic => exists u data c, e = VReceived u data /\ find E u (s_tab E s) = Some c /\
      fst (chunk (e_get E) (e_sig E) (c_buf E c) data) = CPanic
  end.
Proof.
  intros H.
  assert (C : causes (step E e) -> match r with PGo _ => True | PStop x => cause x t | PPanic => False end).
  { intros Hc. specialize (Hc s). unfold wp in Hc. rewrite H in Hc. exact Hc. }
  assert (G : causes (step E e) -> match r with
  | PGo _ => True
  | PStop x => cause x t \/
      (exists u c, x = EAddConsumer u /\ e = VConnected u /\ find E u (s_tab E s) = Some c /\
         t = [] /\ s' = s)
  | PPanic => exists u data c, e = VReceived u data /\ find E u (s_tab E s) = Some c /\
      fst (chunk (e_get E) (e_sig E) (c_buf E c) data) = CPanic
  end).
  { intros Hc. apply C in Hc. destruct r; tauto. }
  clear C. destruct e; try (apply G; cbn [step]; clear; fail).
  - apply G. cbn [step]. apply causes_bind; [cz|]. intros ok. apply causes_fail. intros _. exists []. left. reflexivity.
  - apply G. cbn [step]. cz.
  - clear G. cbn [step] in H. unfold bindp at 1 in H. unfold add_connection in H.
    unfold bindp at 1, look in H. destruct (find E u (s_tab E s)) as [c|] eqn:F.
    + cbn in H. injection H as <- <- <-. right. exists u, c. auto.
    + match type of H with context [bindp E (get_tab E) ?k s] =>
        assert (Hc : causes (bindp E (get_tab E) k)) end.
      { apply causes_bind; [cz|]. intros tb. apply causes_bind; [cz|]. intros bs.
        apply causes_bind; [cz|]. intros _. apply causes_bind; [apply causes_emit_event|]. intros _.
        apply (causes_put (fun s0 => mkSt E (s_w E s0) ((u, consumer_new E) :: s_tab E s0) (s_conf E s0 ++ [u]))). }
      specialize (Hc s). unfold wp in Hc.
      match type of H with context [bindp E (get_tab E) ?k s] =>
        destruct (bindp E (get_tab E) k s) as [t1 [s1 [a|x|]]] end; cbn in H, Hc; injection H as <- <- <-; auto.
      destruct Hc.
  - apply G. cbn [step]. apply causes_bind; [apply causes_remove|]. cz.
  - clear G. cbn [step] in H. unfold bindp at 1 in H. unfold process_received_data in H.
    unfold bindp at 1, look in H. destruct (find E u (s_tab E s)) as [c|] eqn:F.
    + match type of H with context [if negb (c_conf E c) then ?a else ?b] => set (m := if negb (c_conf E c) then a else b) in H end.
      assert (Hc : causes m \/ fst (chunk (e_get E) (e_sig E) (c_buf E c) data) = CPanic).
      { subst m. destruct (negb (c_conf E c)); [left; apply causes_expel|].
        destruct (c_disc E c); [left; cz|].
        destruct (chunk (e_get E) (e_sig E) (c_buf E c) data) as [o b]. destruct o; auto; left.
        - apply causes_bind; [cz|]. intros _. apply causes_loop.
        - apply causes_bind; [cz|]. intros _. apply causes_responsing. }
      destruct Hc as [Hc|Hc].
      * specialize (Hc s). unfold wp in Hc. destruct (m s) as [t1 [s1 [a|x|]]]; cbn in H, Hc; injection H as <- <- <-; auto.
        destruct Hc.
      * destruct r; auto.
        -- left. subst m. destruct (negb (c_conf E c)).
           ++ pose proof (causes_expel u ENotConfirmed s) as Hx. unfold wp in Hx.
              destruct (expel E u ENotConfirmed s) as [t1 [s1 [a|x|]]]; cbn in H, Hx; injection H as <- <- H; congruence || (injection H as <-; auto).
           ++ destruct (c_disc E c); [cbn in H; congruence|].
              destruct (chunk (e_get E) (e_sig E) (c_buf E c) data) as [o b]. cbn in Hc. subst o. cbn in H. congruence.
        -- exists u, data, c. auto.
    + pose proof (causes_responsing u s) as Hx. unfold wp in Hx.
      destruct (responsing_err E u s) as [t1 [s1 [a|x|]]]; cbn in H, Hx; injection H as <- <- <-; auto. destruct Hx.
  - apply G. cbn [step]. unfold opt_ident. apply causes_bind; [destruct u; cy|]. intros i.
    apply causes_bind; [apply causes_emit_error|cz].
  - apply G. cbn [step]. unfold opt_ident. apply causes_bind; [destruct u; cy|]. intros i.
    apply causes_bind; [apply causes_emit_error|cz].
  - apply G. cbn [step]. apply causes_bind; [apply causes_emit_error|cz].
  - apply G. cbn [step]. apply causes_bind; [cz|]. intros tb. apply causes_bind; [cz|]. intros bs.
    apply causes_bind; [cz|]. intros _. apply causes_bind; [apply causes_emit_event|cz].
  - apply G. cbn [step]. apply causes_bind; [cz|]. intros [c|]; [cz|].
    apply causes_bind; [apply causes_emit_error|cz].
  - apply G. cbn [step]. apply causes_bind; [cz|]. intros [c|]; [cz|].
    apply causes_bind; [apply causes_emit_error|cz].
  - apply G. cbn [step]. apply causes_bind; [apply causes_confirm|cz].
  - apply G. cbn [step]. cz.
Qed.

(** ** Messages are processed in the order in which they arrived *)
Definition handled (t : list out) : list (uuid * (header * e_msg E)) :=
  flat_map (fun o => match o with OHandle _ u h m => [(u, (h, m))] | _ => [] end) t.

Lemma handled_app a b : handled (a ++ b) = handled a ++ handled b.
Proof. apply flat_map_app. Qed.

Definition mute {A} (m : P A) : Prop := forall s, wp E m s (fun t _ _ => handled t = []).

Lemma mute_bind {A B} (m : P A) (f : A -> P B) : mute m -> (forall a, mute (f a)) -> mute (bindp E m f).
Proof.
  intros Hm Hf s. apply wp_bind. eapply wp_mono; [apply Hm|]. cbv beta. intros t s' [a|e|] H; auto.
  eapply wp_mono; [apply Hf|]. cbv beta. intros t2 s2 r H2. rewrite handled_app, H, H2. reflexivity.
Qed.
Lemma quiet_handled t : forallb (quiet E) t = true -> handled t = [].
Proof.
  induction t as [|o t IH]; cbn [forallb]; auto. intros H. apply andb_true_iff in H. destruct H as [Ho H].
  change (o :: t) with ([o] ++ t). rewrite handled_app, (IH H), app_nil_r.
  destruct o; cbn in Ho; try discriminate; reflexivity.
Qed.
Lemma mute_calm {A} (m : P A) : calm E m -> mute m.
Proof. intros H s. eapply wp_mono; [apply H|]. cbv beta. intros t s' r (Ht & _). apply quiet_handled. tauto. Qed.
Lemma mute_emit o : handled [o] = [] -> mute (emit E o).
Proof. intros H s. exact H. Qed.
Lemma mute_ret {A} (a : A) : mute (ret E a).
Proof. intros s. reflexivity. Qed.
Lemma mute_upd u f : mute (upd E u f).
Proof. intros s. unfold wp, upd. destruct (find E u (s_tab E s)); reflexivity. Qed.
Lemma mute_send u seq p : mute (send E u seq p).
Proof.
  apply mute_bind; [apply mute_calm, calm_world|]. intros ok.
  apply mute_bind; [apply mute_emit; reflexivity|]. intros. apply mute_ret.
Qed.
Lemma mute_pack_send u seq p : mute (pack_send E u seq p).
Proof. apply mute_bind; [apply mute_calm, calm_try_pack|]. intros [|]; auto using mute_send, mute_ret. Qed.
Lemma mute_disconnect u : mute (disconnect E u).
Proof.
  apply mute_bind; [apply mute_calm, calm_look|]. intros [c|]; [|apply mute_ret].
  destruct (c_disc E c); [apply mute_ret|]. apply mute_bind; [apply mute_upd|]. intros _.
  apply mute_bind; [apply mute_calm, calm_world|]. intros ok.
  apply mute_bind; [apply mute_emit; reflexivity|]. intros _.
  destruct ok; [apply mute_ret|apply mute_calm, calm_stop].
Qed.
Lemma mute_ident_err u e : mute (bindp E (ident_at E u) (fun i => emit_error E e (Some u) i)).
Proof. apply mute_bind; [apply mute_calm, calm_ident_at|]. intros i. apply mute_calm, calm_emit_error. Qed.
Lemma mute_expel u e : mute (expel E u e).
Proof. apply mute_bind; [apply mute_disconnect|]. intros _. apply mute_ident_err. Qed.
Lemma mute_responsing u : mute (responsing_err E u).
Proof.
  apply mute_bind; [destruct (e_cs E); auto using mute_ret, mute_disconnect|]. intros _.
  destruct (e_cs E); auto using mute_ret, mute_ident_err.
Qed.
Lemma mute_not_assigned u : mute (not_assigned E u).
Proof.
  apply mute_bind; [destruct (e_is E); auto using mute_ret, mute_disconnect|]. intros _.
  destruct (e_is E); auto using mute_ret, mute_ident_err.
Qed.
Lemma mute_dispatch u c h m : mute (dispatch E u c h m).
Proof.
  unfold dispatch. destruct (e_request E m) as [r|].
  - apply mute_bind.
    + apply mute_bind; [apply mute_calm, calm_get_tab|]. intros t.
      apply mute_bind; [apply mute_calm, calm_world|]. intros res.
      apply mute_bind; [apply mute_emit; reflexivity|]. intros _.
      apply mute_bind.
      { apply mute_calm. destruct res; [apply calm_ret|]. destruct (Nat.ltb _ _); [|apply calm_ret].
        apply calm_bind; [apply calm_pack_all|]. intros. apply calm_ret. }
      intros [[x l]|]; [|apply mute_ret]. apply mute_bind; [apply mute_pack_send|].
      intros [|]; [|apply mute_ret]. apply mute_bind; [apply mute_calm, calm_broadcast_all|]. intros _.
      apply mute_bind; [apply mute_calm, calm_deferred|]. intros _. apply mute_ret.
    + intros [|]; auto using mute_ret, mute_responsing.
  - destruct (e_beacon E m) as [b|]; [|apply mute_ret]. apply mute_bind.
    + apply mute_bind; [apply mute_calm, calm_get_tab|]. intros t.
      apply mute_bind; [apply mute_calm, calm_world|]. intros ok.
      apply mute_bind; [apply mute_emit; reflexivity|]. intros _. destruct ok; [|apply mute_ret].
      apply mute_bind; [apply mute_pack_send|]. intros [|]; [|apply mute_ret].
      apply mute_bind; [apply mute_calm, calm_deferred|]. intros _. apply mute_ret.
    + intros [|]; [apply mute_ret|apply mute_calm, calm_emit_error].
Qed.
Lemma mute_handle u asg hk h m c : mute (handle E u asg hk h m c).
Proof.
  unfold handle.
  match goal with |- mute (match e_self E m with Some k => if _ then ?x else _ | None => _ end) =>
    assert (O : mute x) end.
  { destruct (e_hash E m) as [pw|].
    - apply mute_bind; [destruct (hash_valid E pw); auto using mute_ret, mute_upd|]. intros _.
      apply mute_bind; [apply mute_pack_send|]. intros ok.
      apply mute_bind; [destruct ok; auto using mute_ret, mute_responsing|]. intros _.
      destruct (hash_valid E pw); auto using mute_ret, mute_expel.
    - destruct (negb (c_hash E c)); [apply mute_expel|]. destruct (negb hk); [apply mute_expel|].
      destruct (negb asg && _); [apply mute_not_assigned|apply mute_dispatch]. }
  destruct (e_self E m); [|exact O]. destruct (c_hash E c); [exact O|].
  apply mute_bind; [apply mute_upd|]. intros _. apply mute_bind; [apply mute_pack_send|].
  intros [|]; auto using mute_ret, mute_responsing.
Qed.

Lemma wp_bind_look {B} u (f : _ -> P B) s (Q : list out -> st -> pres B -> Prop) :
  wp E (f (find E u (s_tab E s))) s Q -> wp E (bindp E (look E u) f) s Q.
Proof. unfold wp, bindp, look. destruct (f (find E u (s_tab E s)) s) as [t [s' r]]. auto. Qed.
Lemma wp_bind_emit {B} o (f : _ -> P B) s (Q : list out -> st -> pres B -> Prop) :
  wp E (f tt) s (fun t s' r => Q (o :: t) s' r) -> wp E (bindp E (emit E o) f) s Q.
Proof. unfold wp, bindp, emit. destruct (f tt s) as [t [s' r]]. auto. Qed.
Lemma wp_bind_upd {B} u g c (f : _ -> P B) s (Q : list out -> st -> pres B -> Prop) :
  find E u (s_tab E s) = Some c ->
  wp E (f tt) (mkSt E (s_w E s) (put E u (g c) (s_tab E s)) (s_conf E s)) Q ->
  wp E (bindp E (upd E u g) f) s Q.
Proof.
  intros F. unfold wp, bindp, upd. rewrite F.
  destruct (f tt (mkSt E (s_w E s) (put E u (g c) (s_tab E s)) (s_conf E s))) as [t [s' r]]. auto.
Qed.

Lemma loop_handled u asg hk ms : forall s c, find E u (s_tab E s) = Some c ->
  wp E (loop E u asg hk ms) s (fun t _ r =>
    exists k, handled t = map (pair u) (firstn k ms) /\ (r = PGo tt -> firstn k ms = ms)).
Proof.
  induction ms as [|[h m] ms IH]; intros s c Fc; cbn [loop].
  { exists 0%nat. split; reflexivity. }
  apply wp_bind_look. rewrite Fc. apply wp_bind_emit.
  apply wp_bind. eapply wp_mono; [apply wp_and; [apply mute_handle|apply (keeps_handle E u asg hk h m c s c Fc)]|].
  cbv beta. intros t s' r [Ht (c' & Fc' & _)].
  destruct r as [a|e|].
  - eapply wp_mono; [apply (IH s' c' Fc')|]. cbv beta. intros t2 s2 r (k & Hk & Hr).
    exists (S k). change (OHandle E u h m :: t ++ t2) with ([OHandle E u h m] ++ t ++ t2).
    rewrite !handled_app, Ht, Hk. split; [reflexivity|]. intros Hg. cbn [firstn]. rewrite Hr by auto. reflexivity.
  - exists 1%nat. change (OHandle E u h m :: t) with ([OHandle E u h m] ++ t).
    rewrite handled_app, Ht. split; [reflexivity|discriminate].
  - exists 1%nat. change (OHandle E u h m :: t) with ([OHandle E u h m] ++ t).
    rewrite handled_app, Ht. split; [reflexivity|discriminate].
Qed.

Theorem received_handled u data s c b t s' r :
  find E u (s_tab E s) = Some c -> c_conf E c = true -> c_disc E c = false ->
  chunk (e_get E) (e_sig E) (c_buf E c) data = (COk, b) ->
  step E (VReceived u data) s = (t, (s', r)) ->
  exists k, handled t = map (pair u) (firstn k (rb_queue b)) /\
    (r = PGo true -> firstn k (rb_queue b) = rb_queue b).
Proof.
  intros Fc Hc Hd Hch Hs.
  assert (W : wp E (step E (VReceived u data)) s (fun t _ r =>
    exists k, handled t = map (pair u) (firstn k (rb_queue b)) /\
    (r = PGo true -> firstn k (rb_queue b) = rb_queue b))).
  { cbn [step]. apply wp_bind. unfold process_received_data.
    apply wp_bind_look. rewrite Fc, Hc, Hd, Hch. cbn [negb].
    eapply wp_bind_upd; [exact Fc|].
    eapply wp_mono; [eapply loop_handled; cbn [s_tab]; eapply find_put_same; exact Fc|].
    cbv beta. intros t1 s1 r1 (k & Hk & Hr).
    destruct r1 as [[]|e|].
    - unfold wp. cbn [ret fst snd]. rewrite app_nil_r. exists k. auto.
    - exists k. split; [exact Hk|discriminate].
    - exists k. split; [exact Hk|discriminate]. }
  unfold wp in W. rewrite Hs in W. exact W.
Qed.

End Stop.
