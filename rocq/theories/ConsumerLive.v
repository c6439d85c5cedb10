(** A cancelled connection can always end, unless a handler waits for the end. *)
From Coq Require Import List NArith Bool Lia Arith.
From Verif Require Import Bytes WireModel FrameModel.
From Verif Require Import ConsumerModel ConsumerProofs ConsumerInv ConsumerTrace ConsumerTrace2 ConsumerGood.
Import ListNotations.

Section Live.
Variable E : cenv.
Notation st := (st E).
Notation out := (out E).
Notation acts := (s_acts E).

(** Steps of the connection's own tasks, of the calls under way and of the running
    handler; nothing new from the application or the transport. *)
Definition internal (l : label E) : bool :=
  match l with
  | LAct _ _ _ | LApiCancel _ | LNext _ | LAnswer _ | LMsgCancel _ | LClientCancel _ | LShutCancel _ | LDone _
  | LOver _ | LEmit _ | LHandled _ => true
  | _ => false
  end.

Definition to (s : st) (P : st -> Prop) : Prop :=
  exists ls s' t, forallb internal ls = true /\ runs E ls s = Some (s', t) /\ P s'.

Definition reached (s : st) : Prop := exists tr, inv E tr s.

(** the running handler awaits the call of [shutdown] that waits for the end *)
Definition stuck (s : st) : Prop :=
  exists a k, s_hand E s = Some (Some a) /\ s_shut E s = ShGot a /\ act E a (acts s) = Some (k, WStop E).

Record ready (s : st) : Prop := {
  y_inv : reached s; y_cancel : s_cancel E s = true; y_over : s_over E s = false; y_stuck : ~ stuck s }.

Lemma to_here s (P : st -> Prop) : P s -> to s P.
Proof. intros H. exists [], s, []. auto. Qed.
Lemma to_step l s s1 t1 (P : st -> Prop) : fire E l s = Some (s1, t1) -> internal l = true -> to s1 P -> to s P.
Proof.
  intros F I (ls&s'&t&L&R&H). exists (l :: ls), s', (t1 ++ t). cbn. rewrite I, F, R. auto.
Qed.
Lemma reached_step l s s1 t1 : fire E l s = Some (s1, t1) -> reached s -> reached s1.
Proof. intros F [tr I]. exists (tr ++ t1). eapply effs_inv; [apply (fire_effs E _ _ _ _ F)|exact I]. Qed.

Lemma ready_step l s s1 t1 : fire E l s = Some (s1, t1) -> ready s -> s_cancel E s1 = true -> s_over E s1 = false ->
  (forall a k, act E a (acts s1) = Some (k, WStop E) -> act E a (acts s) = Some (k, WStop E)) ->
  s_hand E s1 = s_hand E s -> s_shut E s1 = s_shut E s \/ s_shut E s1 = ShNone -> ready s1.
Proof.
  intros F [I C O N] C1 O1 A H S. split; auto; [eapply reached_step; eauto|].
  intros (a&k&H1&S1&A1). destruct S as [S|S]; [|congruence]. apply N. exists a, k. rewrite <- H, <- S. auto.
Qed.

(** the api task *)
Lemma stop_api s (P : st -> Prop) : ready s ->
  (forall s1, ready s1 -> api_up E s1 = false -> to s1 P) -> to s P.
Proof.
  intros Y K. destruct (api_up E s) eqn:U; [|auto].
  assert (F : fire E (LApiCancel E) s = Some (end_api E None s)) by (cbn; rewrite U, (y_cancel _ Y); reflexivity).
  eapply to_step; [exact F|reflexivity|]. apply K; [|reflexivity].
  eapply ready_step; [exact F|exact Y|reflexivity|exact (y_over _ Y)|cbn; auto|reflexivity|left; reflexivity].
Qed.

(** the messages task *)
Lemma drain k : forall s (P : st -> Prop), ready s -> api_up E s = false ->
  length (rb_queue (s_buf E s)) = k -> s_msg E s = MDrain E ->
  (forall s1, ready s1 -> api_up E s1 = false -> s_msg E s1 = MIdle E -> to s1 P) -> to s P.
Proof.
  induction k as [|k IH]; intros s P Y U L M K.
  - assert (F : fire E (LNext E) s = Some (next_msg E s)) by (cbn; rewrite M; reflexivity).
    unfold next_msg, next in F. destruct (rb_queue (s_buf E s)) as [|x q]; [|discriminate].
    eapply to_step; [exact F|reflexivity|]. apply K; [|exact U|reflexivity].
    eapply ready_step; [exact F|exact Y|exact (y_cancel _ Y)|exact (y_over _ Y)|cbn; auto|reflexivity|left; reflexivity].
  - assert (F : fire E (LNext E) s = Some (next_msg E s)) by (cbn; rewrite M; reflexivity).
    unfold next_msg, next in F. destruct (rb_queue (s_buf E s)) as [|[h m] q] eqn:Q; [discriminate|].
    injection L as L. rewrite U in F. destruct (x_confirm E m) eqn:CF.
    + eapply to_step; [exact F|reflexivity|]. apply IH; [|exact U|exact L|reflexivity|exact K].
      eapply ready_step; [exact F|exact Y|exact (y_cancel _ Y)|exact (y_over _ Y)| |reflexivity|left; reflexivity].
      intros a k'. cbn. destruct (Nat.eqb a (s_next E s)); [discriminate|auto].
    + unfold not_accepted, emit, dispatch, emit in F. destruct (x_broadcast E m) eqn:B.
      all: eapply to_step; [exact F|reflexivity|]; apply IH; [|exact U|exact L|reflexivity|exact K].
      all: eapply ready_step; [exact F|exact Y|exact (y_cancel _ Y)|exact (y_over _ Y)|cbn; auto|reflexivity|left; reflexivity].
Qed.

Lemma idle s (P : st -> Prop) : ready s -> api_up E s = false -> msg_up E s = true ->
  (forall s1, ready s1 -> api_up E s1 = false -> s_msg E s1 = MIdle E -> to s1 P) -> to s P.
Proof.
  intros Y U V K. unfold msg_up in V. destruct (s_msg E s) as [| |h m b|] eqn:M; [auto|eapply drain; eauto| |discriminate].
  assert (F : fire E (LAnswer E) s = match b with
     | Some true => Some (set_mstate E (MDrain E) s, []) | Some false => Some (dispatch E m s) | None => Some (not_accepted E m s) end).
  { cbn. rewrite M, U. destruct b as [[|]|]; reflexivity. }
  destruct b as [[|]|].
  - eapply to_step; [exact F|reflexivity|]. eapply drain; [|exact U|reflexivity|reflexivity|exact K].
    eapply ready_step; [exact F|exact Y|exact (y_cancel _ Y)|exact (y_over _ Y)|cbn; auto|reflexivity|left; reflexivity].
  - unfold dispatch, emit in F. destruct (x_broadcast E m) eqn:B.
    all: eapply to_step; [exact F|reflexivity|]; eapply drain; [|exact U|reflexivity|reflexivity|exact K].
    all: eapply ready_step; [exact F|exact Y|exact (y_cancel _ Y)|exact (y_over _ Y)|cbn; auto|reflexivity|left; reflexivity].
  - unfold not_accepted, emit, dispatch, emit in F. destruct (x_broadcast E m) eqn:B.
    all: eapply to_step; [exact F|reflexivity|]; eapply drain; [|exact U|reflexivity|reflexivity|exact K].
    all: eapply ready_step; [exact F|exact Y|exact (y_cancel _ Y)|exact (y_over _ Y)|cbn; auto|reflexivity|left; reflexivity].
Qed.

Lemma stop_msg s (P : st -> Prop) : ready s -> api_up E s = false ->
  (forall s1, ready s1 -> api_up E s1 = false -> msg_up E s1 = false -> to s1 P) -> to s P.
Proof.
  intros Y U K. destruct (msg_up E s) eqn:V; [|auto]. eapply idle; eauto.
  clear s Y U V. intros s Y U M.
  assert (F : fire E (LMsgCancel E) s = Some (end_msg E None s)) by (cbn; rewrite M, (y_cancel _ Y); reflexivity).
  eapply to_step; [exact F|reflexivity|]. apply K; [|exact U|reflexivity].
  eapply ready_step; [exact F|exact Y|reflexivity|exact (y_over _ Y)|cbn; auto|reflexivity|left; reflexivity].
Qed.

Definition down (s : st) : Prop := api_up E s = false /\ msg_up E s = false.

Lemma stop_cli s (P : st -> Prop) : ready s -> down s ->
  (forall s1, ready s1 -> down s1 -> s_cli E s1 <> None -> to s1 P) -> to s P.
Proof.
  intros Y D K. destruct (s_cli E s) eqn:C; [apply K; auto; congruence|].
  assert (F : fire E (LClientCancel E) s = Some (set_cli E (Some None) true (fst (emit E (EDisconnected E) s)), [XEmit E (EDisconnected E); XCliEnd E None]))
    by (cbn; rewrite C, (y_cancel _ Y); reflexivity).
  eapply to_step; [exact F|reflexivity|]. apply K; [|exact D|discriminate].
  eapply ready_step; [exact F|exact Y|reflexivity|exact (y_over _ Y)|cbn; auto|reflexivity|left; reflexivity].
Qed.

Lemma stop_shut s (P : st -> Prop) : ready s -> down s -> s_cli E s <> None ->
  (forall s1, ready s1 -> down s1 -> s_cli E s1 <> None -> s_shut E s1 <> ShWait -> to s1 P) -> to s P.
Proof.
  intros Y D C K. destruct (s_shut E s) eqn:W; [|apply K; auto; congruence..].
  assert (F : fire E (LShutCancel E) s = Some (set_shut E [] ShNone (s_cancel E s) s, []))
    by (cbn; rewrite W, (y_cancel _ Y); reflexivity).
  eapply to_step; [exact F|reflexivity|]. apply K; [|exact D|exact C|discriminate].
  eapply ready_step; [exact F|exact Y|exact (y_cancel _ Y)|exact (y_over _ Y)|cbn; auto|reflexivity|right; reflexivity].
Qed.

Record still (s : st) : Prop := { z_down : down s; z_cli : s_cli E s <> None; z_shut : s_shut E s <> ShWait }.

Lemma finish s (P : st -> Prop) : ready s -> still s ->
  (forall s1, ready s1 -> still s1 -> s_done E s1 = true -> to s1 P) -> to s P.
Proof.
  intros Y [[U V] C W] K. destruct (s_done E s) eqn:D; [apply K; auto; split; auto; split; auto|].
  unfold api_up in U. unfold msg_up in V.
  destruct (s_api E s) as [ra|] eqn:A; [|discriminate]. destruct (s_msg E s) as [| | |rm] eqn:M; try discriminate.
  destruct (s_cli E s) as [rc|] eqn:L; [|congruence].
  assert (F : fire E (LDone E) s = Some (set_done E (fst (emit E (EShutdown E (first_err rc rm ra)) s)), [XEmit E (EShutdown E (first_err rc rm ra))]))
    by (cbn; rewrite A, M, L, D; reflexivity).
  eapply to_step; [exact F|reflexivity|]. apply K; [| |reflexivity].
  - eapply ready_step; [exact F|exact Y|exact (y_cancel _ Y)|exact (y_over _ Y)|cbn; auto|reflexivity|left; reflexivity].
  - split; [split|cbn; congruence|exact W]; unfold api_up, msg_up; cbn; [rewrite A|rewrite M]; reflexivity.
Qed.

(** a call under way ends as soon as it runs *)
Lemma call_ends s a k sg : reached s -> still s -> act E a (acts s) = Some (k, sg) ->
  ~ (s_shut E s = ShGot a /\ s_over E s = false /\ sg = WStop E) ->
  exists o, fire E (LAct E a true) s = Some (gone E a s, [o]) /\ ended E a o.
Proof.
  intros [tr I] [[U V] C W] A N. pose proof (i_tasks _ _ _ I) as T.
  destruct (k_api E s T U) as (Q1&Q2&_). destruct (k_msg E s T V) as (Q3&_). pose proof (k_shut E s T W) as Q4.
  assert (HS : waiting E sg = true -> has_sender E a s = false).
  { intros _. apply has_sender_iff. destruct (senders E a s) as [|x l] eqn:Z; [reflexivity|exfalso].
    assert (J : In x (senders E a s)) by (rewrite Z; left; reflexivity).
    assert (x = SStop /\ s_shut E s = ShGot a /\ s_over E s = false) as (->&S&O).
    { unfold senders in J. rewrite Q1, Q2, Q3, Q4 in J. cbn in J. unfold g_snd in J.
      destruct (s_shut E s) as [|b|] eqn:S; try contradiction. destruct (s_over E s) eqn:O; [destruct J|].
      cbn in J. unfold one in J. destruct (Nat.eqb a b) eqn:B; [|destruct J].
      apply Nat.eqb_eq in B. subst b. destruct J as [<-|[]]. auto. }
    pose proof (sender_stage E s a _ k sg (i_senders _ _ _ I) J A) as X. apply N. destruct sg; try discriminate X. auto. }
  pose proof (g_stage _ _ _ (i_staged _ _ _ I) _ _ _ A) as G.
  cbn [fire]. unfold run_act. rewrite A. unfold ask, request, fails, return_, end_auth. rewrite U, V.
  destruct sg; cbn in G; try (rewrite HS by reflexivity).
  all: destruct k; try contradiction; try discriminate; cbn [req_err].
  all: try (destruct G as (?&?&[?|?]); discriminate).
  all: try match goal with |- context [x_self E ?m] => destruct (x_self E m) end.
  all: try match goal with |- context [x_hash E ?m] => destruct (x_hash E m) as [[?|]|] end.
  all: try match goal with |- context [x_answer E ?r ?m] => destruct (x_answer E r m) end.
  all: try match goal with |- context [x_beacon E ?m] => destruct (x_beacon E m) as [[?|]|] end.
  all: eexists; split; [reflexivity|reflexivity].
Qed.

(** the handlers *)
Lemma handler s (P : st -> Prop) : ready s -> still s -> s_done E s = true ->
  (forall s1, ready s1 -> still s1 -> s_done E s1 = true -> s_hand E s1 = None -> s_emit E s1 = s_emit E s -> to s1 P) -> to s P.
Proof.
  intros Y S D K. destruct (s_hand E s) as [[a|]|] eqn:H; [| |apply K; auto].
  - assert (K1 : forall s1, ready s1 -> still s1 -> s_done E s1 = true -> s_emit E s1 = s_emit E s ->
      s_hand E s1 = Some (Some a) -> act E a (acts s1) = None -> to s1 P).
    { intros s1 Y1 S1 D1 M1 H1 A1.
      assert (F : fire E (LHandled E) s1 = Some (set_hand E (Some None) s1, [])) by (cbn; rewrite H1, A1; reflexivity).
      assert (Y2 : ready (set_hand E (Some None) s1)).
      { split; [eapply reached_step; [exact F|exact (y_inv _ Y1)]|exact (y_cancel _ Y1)|exact (y_over _ Y1)|]. intros (?&?&X&_). discriminate X. }
      eapply to_step; [exact F|reflexivity|].
      assert (F2 : fire E (LHandled E) (set_hand E (Some None) s1) = Some (set_hand E None (set_hand E (Some None) s1), [])) by reflexivity.
      eapply to_step; [exact F2|reflexivity|]. apply K; auto.
      - split; [eapply reached_step; [exact F2|exact (y_inv _ Y2)]|exact (y_cancel _ Y1)|exact (y_over _ Y1)|]. intros (?&?&X&_). discriminate X.
      - destruct S1 as [[? ?] ? ?]. repeat split; auto. }
    destruct (act E a (acts s)) as [[k sg]|] eqn:A; [|eapply K1; eauto].
    destruct (call_ends s a k sg (y_inv _ Y) S A) as (o&F&_).
    { intros (X1&_&X2). apply (y_stuck _ Y). exists a, k. subst sg. auto. }
    eapply to_step; [exact F|reflexivity|]. 
    destruct (y_inv _ Y) as [tr I]. assert (A' : act E a (acts (gone E a s)) = None).
    { cbn. rewrite act_del_any by apply (i_ids _ _ _ I). rewrite Nat.eqb_refl. reflexivity. }
    apply K1; auto.
    + split; [eapply reached_step; [exact F|exact (y_inv _ Y)]|exact (y_cancel _ Y)|exact (y_over _ Y)|].
      intros (b&k'&X1&X2&X3). replace (s_hand E (gone E a s)) with (s_hand E s) in X1 by reflexivity. rewrite H in X1. injection X1 as <-.
      rewrite A' in X3. discriminate.
    + destruct S as [[? ?] ? ?]. repeat split; auto.
  - assert (F : fire E (LHandled E) s = Some (set_hand E None s, [])) by (cbn; rewrite H; reflexivity).
    eapply to_step; [exact F|reflexivity|]. apply K; auto.
    + split; [eapply reached_step; [exact F|exact (y_inv _ Y)]|exact (y_cancel _ Y)|exact (y_over _ Y)|]. intros (?&?&X&_). discriminate X.
    + destruct S as [[? ?] ? ?]. repeat split; auto.
Qed.

Lemma events l : forall s (P : st -> Prop), ready s -> still s -> s_done E s = true -> s_hand E s = None -> s_emit E s = l ->
  (forall s1, ready s1 -> still s1 -> s_done E s1 = true -> s_hand E s1 = None -> s_emit E s1 = [] -> to s1 P) -> to s P.
Proof.
  induction l as [|e l IH]; intros s P Y S D H M K; [auto|].
  assert (F : fire E (LEmit E) s = Some (set_hand E (Some None) (set_emit E l s), [XEvent E e])) by (cbn; rewrite M, H; reflexivity).
  eapply to_step; [exact F|reflexivity|].
  assert (F2 : fire E (LHandled E) (set_hand E (Some None) (set_emit E l s)) = Some (set_hand E None (set_hand E (Some None) (set_emit E l s)), [])) by reflexivity.
  eapply to_step; [exact F2|reflexivity|]. apply IH; auto.
  - split; [eapply reached_step; [exact F2|]; eapply reached_step; [exact F|exact (y_inv _ Y)]|exact (y_cancel _ Y)|exact (y_over _ Y)|].
    intros (?&?&X&_). discriminate X.
  - destruct S as [[? ?] ? ?]. repeat split; auto.
Qed.

Lemma can_end s : ready s -> to s (fun s' => s_over E s' = true).
Proof.
  intros Y. apply stop_api; [exact Y|]. clear s Y. intros s Y U. apply stop_msg; auto. clear s Y U. intros s Y U V.
  apply stop_cli; [exact Y|split; auto|]. clear s Y U V. intros s Y D C. apply stop_shut; auto. clear s Y D C. intros s Y D C W.
  apply finish; [exact Y|split; auto|]. clear s Y D C W. intros s Y S D.
  apply handler; auto. intros s1 Y1 S1 D1 H1 _. clear s Y S D. eapply events; eauto. clear s1 Y1 S1 D1 H1. intros s Y S D H M.
  destruct S as [[U V] C W]. unfold api_up in U. unfold msg_up in V.
  destruct (s_api E s) as [ra|] eqn:A; [|discriminate]. destruct (s_msg E s) as [| | |rm] eqn:Q; try discriminate.
  destruct (s_cli E s) as [rc|] eqn:L; [|congruence].
  assert (F : exists s1 t1, fire E (LOver E) s = Some (s1, t1) /\ s_over E s1 = true).
  { cbn. rewrite A, Q, L, M, H, D, (y_over _ Y). cbn [andb negb].
    destruct (s_shut E s) as [|a|] eqn:Z; [congruence| |eauto].
    destruct (act E a (acts (set_over E s))) as [[k [ ]]|] eqn:B; cbn in B; rewrite B; eauto. }
  destruct F as (s1&t1&F&O). eapply to_step; [exact F|reflexivity|]. apply to_here. exact O.
Qed.

(** * The deadlock *)
(** The handler that awaits the end, and everything it waits for, stay as they are. *)
Lemma stuck_stays l s s1 t1 a k : reached s -> s_hand E s = Some (Some a) -> s_shut E s = ShGot a ->
  act E a (acts s) = Some (k, WStop E) -> s_over E s = false -> fire E l s = Some (s1, t1) -> l <> LDrop E a ->
  (s_hand E s1 = Some (Some a) /\ s_shut E s1 = ShGot a /\ act E a (acts s1) = Some (k, WStop E) /\ s_over E s1 = false)
  \/ In (XOver E false (Some XPanic)) t1.
Proof.
  intros [tr I] H S A O F ND. pose proof (i_ids _ _ _ I) as ID.
  assert (HS : has_sender E a s = true) by (unfold has_sender; rewrite S, O, Nat.eqb_refl; apply orb_true_r).
  assert (LT := act_lt E s a _ ID A).
  assert (ADD : forall x, act E a ((s_next E s, x) :: acts s) = Some (k, WStop E)).
  { intros x. cbn. destruct (Nat.eqb a (s_next E s)) eqn:B; [apply Nat.eqb_eq in B; lia|exact A]. }
  assert (DEL : forall b, b <> a -> act E a (del_act E b (acts s)) = Some (k, WStop E)).
  { intros b B. rewrite act_del_any by apply ID. destruct (Nat.eqb b a) eqn:Q; [apply Nat.eqb_eq in Q; congruence|exact A]. }
  assert (PUT : forall b x, b <> a -> act E a (put_act E b x (acts s)) = Some (k, WStop E)).
  { intros b x B. rewrite act_put_any. destruct (Nat.eqb b a) eqn:Q; [apply Nat.eqb_eq in Q; congruence|exact A]. }
  destruct l; cbn [fire] in F.
  - destruct (user_kind E k0); [|discriminate]. injection F as <- <-. left. cbn [s_hand s_shut s_acts s_over add_act]. auto.
  - destruct (act E a0 (acts s)) as [[k0 sg]|]; [|discriminate]. destruct (user_kind E k0); [|discriminate]. injection F as <- <-.
    left. cbn. repeat split; auto; apply DEL; congruence.
  - injection F as <- <-. left. cbn. auto.
  - destruct (Nat.eq_dec a0 a) as [->|NE].
    + unfold run_act in F. rewrite A, HS in F. discriminate.
    + left. unfold run_act, ask, request, fails, end_auth, return_ in F.
      repeat match type of F with context [match ?x with _ => _ end] => destruct x eqn:? end; try discriminate.
      all: injection F as <- <-; cbn; repeat split; auto.
  - destruct (act E a0 (acts s)) as [[k0 sg]|] eqn:B; [|discriminate].
    assert (a0 <> a) by (intros ->; rewrite A in B; injection B as <- <-; destruct k; discriminate).
    left. destruct k0; try discriminate; destruct sg; try discriminate; injection F as <- <-; cbn; repeat split; auto.
  - left. destruct (api_up E s); [|discriminate]. destruct (s_q E s) as [|c q]; [discriminate|].
    destruct c; cbn [api_cmd] in F; unfold end_api in F; cbn in F.
    all: repeat match type of F with context [match ?x with _ => _ end] => destruct x eqn:? end; try discriminate.
    all: repeat match goal with H : (_, _) = (_, _) |- _ => injection H as <- <- | H : match ?x with _ => _ end = (_, _) |- _ => destruct x eqn:? end.
    all: injection F as <- <-; cbn; repeat split; auto.
    all: try (apply PUT; intros ->; congruence).
    all: congruence.
  - left. destruct (api_up E s && s_cancel E s); [|discriminate]. injection F as <- <-. cbn. auto.
  - destruct (s_msg E s); try discriminate. destruct e; cbn [client_event emit] in F.
    + destruct (chunk (x_get E) (x_sig E) (s_buf E s) data) as [[|x|] b].
      * apply some_inj in F; destruct F as [-> ->]. first [left; cbn; auto; fail|right; left; reflexivity].
      * apply some_inj in F; destruct F as [-> ->]. first [left; cbn; auto; fail|right; left; reflexivity].
      * apply some_inj in F; destruct F as [-> ->]. first [left; cbn; auto; fail|right; left; reflexivity].
    + injection F as <- <-. left. cbn. auto.
    + injection F as <- <-. left. cbn. auto.
    + injection F as <- <-. left. cbn. auto.
    + injection F as <- <-. left. cbn. auto.
  - left. destruct (s_msg E s); try discriminate. injection F as <- <-. cbn. auto.
  - left. destruct (s_msg E s); try discriminate.
    unfold next_msg, not_accepted, emit, dispatch, emit in F.
    repeat match type of F with context [match ?x with _ => _ end] => destruct x eqn:? end; try discriminate.
    all: repeat match goal with H : (_, _) = (_, _) |- _ => injection H as <- <- | H : match ?x with _ => _ end = (_, _) |- _ => destruct x eqn:? end.
    all: injection F as <- <-; cbn [s_hand s_shut s_acts s_over add_act set_msg set_emit push_q set_api set_mstate]; repeat split; auto.
  - left. unfold not_accepted, emit, dispatch, emit in F.
    repeat match type of F with context [match ?x with _ => _ end] => destruct x eqn:? end; try discriminate.
    all: repeat match goal with H : (_, _) = (_, _) |- _ => injection H as <- <- | H : match ?x with _ => _ end = (_, _) |- _ => destruct x eqn:? end.
    all: injection F as <- <-; cbn; repeat split; auto.
  - left. unfold auth_msg, emit, end_msg in F. cbn in F.
    repeat match type of F with context [match ?x with _ => _ end] => destruct x eqn:? end; try discriminate.
    all: repeat match goal with H : (_, _) = (_, _) |- _ => injection H as <- <- | H : match ?x with _ => _ end = (_, _) |- _ => destruct x eqn:? end.
    all: injection F as <- <-; cbn; repeat split; auto.
    all: apply PUT; intros ->; congruence.
  - left. destruct (s_msg E s); try discriminate. destruct (s_cancel E s); [|discriminate]. injection F as <- <-. cbn. auto.
  - left. destruct (s_cli E s); [discriminate|]. destruct ok; cbn in F; injection F as <- <-; cbn; auto.
  - left. destruct (s_cli E s); [discriminate|]. destruct (s_cancel E s); [|discriminate]. cbn in F. injection F as <- <-. cbn. auto.
  - rewrite S in F. discriminate.
  - rewrite S in F. discriminate.
  - left. unfold emit in F. repeat match type of F with context [match ?x with _ => _ end] => destruct x eqn:? end; try discriminate.
    injection F as <- <-. cbn. auto.
  - rewrite H in F. repeat match type of F with context [match ?x with _ => _ end] => destruct x eqn:? end; discriminate.
  - rewrite H in F. repeat match type of F with context [match ?x with _ => _ end] => destruct x eqn:? end; discriminate.
  - rewrite H in F. discriminate.
  - rewrite H, A in F. discriminate.
Qed.

(** However long the execution goes on, the connection never ends. *)
Lemma stuck_forever a k ls : forall s s1 t1, reached s -> s_hand E s = Some (Some a) -> s_shut E s = ShGot a ->
  act E a (acts s) = Some (k, WStop E) -> s_over E s = false -> runs E ls s = Some (s1, t1) -> ~ In (LDrop E a) ls ->
  ~ In (XOver E false (Some XPanic)) t1 -> s_over E s1 = false.
Proof.
  induction ls as [|l ls IH]; intros s s1 t1 R H S A O F ND NP; cbn in F; [injection F as <- <-; exact O|].
  destruct (fire E l s) as [[s2 t2]|] eqn:F1; [|discriminate].
  destruct (runs E ls s2) as [[s3 t3]|] eqn:F2; [|discriminate]. injection F as <- <-.
  destruct (stuck_stays l s s2 t2 a k R H S A O F1) as [(H1&S1&A1&O1)|P].
  - intros ->. apply ND. left. reflexivity.
  - eapply (IH s2 s3 t3); auto.
    + exact (reached_step _ _ _ _ F1 R).
    + intros J. apply ND. right. exact J.
    + intros J. apply NP. apply in_app_iff. auto.
  - exfalso. apply NP. apply in_app_iff. auto.
Qed.

End Live.
