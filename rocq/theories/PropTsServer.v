(** What an application, and a client, can rely on in a generated TypeScript server
    (C85 - C93).  [qrun E ls s tr]: [tr] is what happens in the execution with the
    steps [ls]; all theorems are about all executions. *)
From Coq Require Import List NArith Arith Bool Lia.
From Coq Require Import Strings.Byte.
From Verif Require Import Bytes WireModel FrameModel FrameProofs TsModel TsReader TsServerModel TsServerProofs TsServerTrace.
From Verif Require ProducerModel.
Import ListNotations.
Open Scope N_scope.

Section Statements.
Variable E : qenv.
Local Notation M := (q_msg E).
Local Notation X := (q_out E).
Local Notation qst := (qst M X).
Local Notation qev := (qev M X).

(** [IN] says that an event is in a list in which it cannot be. *)
Ltac noway IN := exfalso; repeat first
  [ discriminate IN
  | solve [elim IN]
  | match goal with HP : forall x, In x ?es -> x = _ \/ exists _, _ |- _ =>
      apply HP in IN as [IN|(? & ? & IN)] end
  | destruct IN as [IN|IN]
  | apply in_receiving in IN as [(IN & _)|IN]
  | apply in_broadcast in IN as (? & ? & ? & _ & _ & IN)
  | apply in_app_iff in IN as [IN|IN]
  | match type of IN with In _ (match ?r with TReturned _ => _ | TThrown => _ end) => destruct r as [[|?]|] end ].
(** The same after the cases of [fire_emits]; what is left is possible. *)
Ltac cases F IN :=
  destruct (fire_emits E _ _ _ _ F) as [(-> & o1 & c1 & L1 & O1 & C)|[(t1 & j1 & c1 & OT & L1 & HJ & HO & HS & C)|[(u1 & -> & L1 & C)|
    [(u1 & -> & C)|[(u1 & d1 & f1 & -> & L1 & C)|[(v1 & -> & C)|[(v1 & -> & C)|[(v1 & -> & C)|(ev1 & r1 & k1 & -> & C)]]]]]]]];
  [destruct C as [(Q1 & S1 & C)|(h1 & m1 & q1 & es1 & Q1 & C & T)]
  | |destruct C as [(MU & C)|(MU & C)]|destruct C as [(v1 & MU & C)|(MU & C)]
  |destruct C as [(MU & C)|(v1 & c1 & MU & O1 & [(D1 & C)|(r1 & b1 & D1 & T & C)])]| | | | ];
  try (rewrite C in IN; solve [noway IN]); try solve [noway IN];
  try (destruct C; solve [noway IN]).

Lemma by_start s l s' e1 t o h m e2 : fire E s l = Some (s', e1 ++ OStart t o h m :: e2) ->
  exists c, l = LNext /\ p_loop s = Some o /\ p_obj s o = Some c /\ e1 = [ORead o h m] /\ e2 = [] /\
    k_hash c = true /\ k_key c = true /\ q_for E m <> None /\ t = p_tasks s.
Proof.
  intro F. assert (IN : In (OStart t o h m) (e1 ++ OStart t o h m :: e2)) by apply in_elt.
  cases F IN.
  destruct e1 as [|x e1]; [discriminate C|]. cbn [app] in C. injection C as -> C.
  assert (IN' : In (OStart t o h m) es1) by (rewrite <- C; apply in_elt).
  destruct T; try solve [noway IN'].
  destruct e1 as [|y e1]; [|destruct e1; discriminate C]. cbn [app] in C. injection C as -> -> -> -> ->.
  exists c1. repeat (split; [solve [auto]|]). split; [congruence|reflexivity].
Qed.

(** ** C85: handlers are called for clients that have completed the handshake *)

Theorem C85_handler_after_handshake : forall ls s tr p t o h m q,
  qrun E ls s tr -> tr = p ++ OStart t o h m :: q ->
  exists p', p = p' ++ [ORead o h m] /\
    (exists h1 m1, In (ORead o h1 m1) p' /\ q_hash E m1 = Some (q_proto E, q_work E)) /\
    (In (OKey o true) p' \/ exists h1 m1, In (ORead o h1 m1) p' /\ q_self E m1 = true) /\
    q_for E m <> None.
Proof.
  intros ls s tr p t o h m q R Q.
  destruct (qrun_split E _ _ _ R _ _ _ Q) as (ls1 & s1 & tr1 & l & s2 & e1 & e2 & R1 & F & P & _).
  pose proof (qrun_inv E _ _ _ R1) as I.
  destruct (by_start _ _ _ _ _ _ _ _ _ F) as (c & -> & L & O & -> & -> & S2 & S3 & S4 & _).
  exists tr1. split; [exact P|]. split; [apply (i_hash _ _ _ I o c O S2)|].
  split; [apply (i_key _ _ _ I o c O S3)|exact S4].
Qed.

(** ** C86: the strategy for clients that were not assigned *)

Definition with_is (i : ProducerModel.istrategy) : qenv :=
  mkQenv (q_msg E) (q_get E) (q_sig E) (q_self E) (q_hash E) (q_proto E) (q_work E) (q_for E)
         (q_req E) (q_event E) (q_out E) (q_id E) (q_cs E) i.

(** Whatever strategy is chosen, the server behaves in the same way. *)
Theorem C86_strategy_has_no_effect : forall i ls s tr,
  qrun (with_is i) ls s tr <-> qrun E ls s tr.
Proof.
  intros i ls s tr.
  assert (K : forall s l, fire (with_is i) s l = fire E s l).
  { intros s0 l. destruct l; reflexivity. }
  split; intro R.
  - induction R as [|ls s tr l s' es R IH F]; [apply (qrun_nil E)|].
    apply (qrun_step E ls s tr l s' es IH). rewrite <- K. exact F.
  - induction R as [|ls s tr l s' es R IH F]; [apply (qrun_nil (with_is i))|].
    apply (qrun_step (with_is i) ls s tr l s' es IH). rewrite K. exact F.
Qed.

(** ** C87: answers *)

Definition answers (t : nat) (tr : list qev) : nat :=
  length (filter (fun e => match e with OSend (ByTask t') _ _ _ => Nat.eqb t' t | _ => false end) tr).

Lemma by_send s l s' e1 c u n x e2 : fire E s l = Some (s', e1 ++ OSend c u n x :: e2) ->
  match c with
  | ByLoop => exists o k h m, p_obj s o = Some k /\ k_uuid k = u /\ h_seq h = n /\
      (e1 = [ORead o h m] \/ e1 = [ORead o h m; OKey o false]) /\
      match x with
      | PSelf v => v = u /\ q_self E m = true
      | PHash ok => q_hash E m <> None /\ (ok = true <-> q_hash E m = Some (q_proto E, q_work E))
      | _ => False
      end
  | ByTask t => exists j k, p_task s t = Some j /\ p_obj s (j_obj j) = Some k /\ k_uuid k = u /\ j_num j = n /\
      j_stage j <> QDone /\
      match x with
      | PAnswer y => exists bs r, e1 = [OResult t y bs] /\ j_kind j = (true, r)
      | PConfirm => e1 = [] /\ exists r, j_kind j = (false, r)
      | _ => False
      end
  end.
Proof.
  intro F. assert (IN : In (OSend c u n x) (e1 ++ OSend c u n x :: e2)) by apply in_elt.
  cases F IN.
  - destruct e1 as [|y e1]; [discriminate C|]. cbn [app] in C. injection C as -> C.
    assert (IN' : In (OSend c u n x) es1) by (rewrite <- C; apply in_elt).
    destruct T; try solve [noway IN'].
    + destruct e1 as [|y e1]; [discriminate C|]. cbn [app] in C. injection C as -> C.
      destruct e1 as [|y e1]; [|destruct e1; discriminate C]. cbn [app] in C. injection C as -> -> -> -> ->.
      exists o1, c1, h1, m1. repeat (split; [solve [auto]|]). auto.
    + destruct e1 as [|y e1]; [|destruct e1 as [|? [|? e1]]; discriminate C]. cbn [app] in C. injection C as -> -> -> -> ->.
      exists o1, c1, h1, m1. repeat (split; [solve [auto]|]). split; [congruence|tauto].
    + destruct e1 as [|y e1]; [|destruct e1 as [|? [|? [|? e1]]]; discriminate C]. cbn [app] in C. injection C as -> -> -> -> ->.
      exists o1, c1, h1, m1. repeat (split; [solve [auto]|]). split; [congruence|]. split; [discriminate|congruence].
  - remember (e1 ++ OSend c u n x :: e2) as es eqn:ES. destruct C as [pre HP|y r ops KD bs RE|r KD|bs|]; try solve [noway IN].
    + destruct e1 as [|z e1]; [discriminate ES|]. cbn [app] in ES. injection ES as <- ES.
      destruct e1 as [|z e1]; [|destruct e1; discriminate ES]. cbn [app] in ES. injection ES as <- <- <- <- _.
      exists j1, c1. eauto 10.
    + destruct e1 as [|z e1]; [|destruct e1; discriminate ES]. cbn [app] in ES. injection ES as <- <- <- <- _.
      exists j1, c1. eauto 10.
Qed.

Lemma task_start s tr t j k : inv E s tr -> p_task s t = Some j -> p_obj s (j_obj j) = Some k ->
  exists h m, In (OStart t (j_obj j) h m) tr /\ h_seq h = j_num j /\ q_for E m = Some (j_kind j).
Proof.
  intros I J O. pose proof (task_shape E _ _ _ _ _ I J O) as (h & m & H1 & H2 & S). exists h, m.
  split; [|auto].
  assert (A : about E t (OStart t (j_obj j) h m) = true) by apply Nat.eqb_refl.
  apply (in_life E t tr _ A). destruct (j_stage j).
  - rewrite S. left. reflexivity.
  - destruct S as (a & _ & ->). left. reflexivity.
  - destruct S as (bs & a & _ & ->). left. reflexivity.
  - destruct S as [->|(bs & a & _ & [->|[(n & _ & ->)|[->| ->]]])]; left; reflexivity.
Qed.

(** Everything that is sent to one client only carries the number of a message
    that this client has sent, and is what that message asks for. *)
Theorem C87_own_number : forall ls s tr p c u n x q,
  qrun E ls s tr -> tr = p ++ OSend c u n x :: q ->
  match c with
  | ByLoop => exists o h m p',
      (p = p' ++ [ORead o h m] \/ p = p' ++ [ORead o h m; OKey o false]) /\
      In (OConnected u o) p' /\ h_seq h = n /\
      match x with
      | PSelf v => v = u /\ q_self E m = true
      | PHash ok => q_hash E m <> None /\ (ok = true <-> q_hash E m = Some (q_proto E, q_work E))
      | _ => False
      end
  | ByTask t => exists o h m,
      In (OStart t o h m) p /\ In (OConnected u o) p /\ h_seq h = n /\
      match x with
      | PAnswer y => exists r bs p', q_for E m = Some (true, r) /\ p = p' ++ [OResult t y bs]
      | PConfirm => exists r, q_for E m = Some (false, r)
      | _ => False
      end
  end.
Proof.
  intros ls s tr p c u n x q R Q.
  destruct (qrun_split E _ _ _ R _ _ _ Q) as (ls1 & s1 & tr1 & l & s2 & e1 & e2 & R1 & F & P & _).
  pose proof (qrun_inv E _ _ _ R1) as I. pose proof (by_send _ _ _ _ _ _ _ _ _ F) as B. destruct c as [|t].
  - destruct B as (o & k & h & m & O & <- & H & P1 & B). exists o, h, m, tr1.
    split; [destruct P1 as [->| ->]; auto|]. split; [apply (i_conn _ _ _ I o k O)|auto].
  - destruct B as (j & k & J & O & <- & H & _ & B).
    destruct (task_start _ _ _ _ _ I J O) as (h & m & S1 & S2 & S3). exists (j_obj j), h, m.
    split; [rewrite P; apply in_app_iff; auto|].
    split; [rewrite P; apply in_app_iff; left; apply (i_conn _ _ _ I _ k O)|].
    split; [congruence|]. destruct x as [v|ok|y|]; try exact B.
    + destruct B as (bs & r & -> & KD). exists r, bs, tr1. rewrite S3, KD. auto.
    + destruct B as (-> & r & KD). exists r. rewrite S3, KD. auto.
Qed.

Lemma answers_app t a b : answers t (a ++ b) = (answers t a + answers t b)%nat.
Proof. unfold answers. rewrite filter_app, app_length. reflexivity. Qed.
Lemma answers_life t tr : answers t (life E t tr) = answers t tr.
Proof.
  unfold answers. f_equal. induction tr as [|e tr IH]; [reflexivity|]. unfold life in *. cbn [filter].
  destruct e as [| | | | | | | | | |[|t']| | | | | |]; cbn [about filter]; try exact IH;
    try (destruct (Nat.eqb _ t) eqn:Q; cbn [filter]; rewrite ?Q, IH; reflexivity).
  destruct c as [t'|]; [|exact IH]. destruct (Nat.eqb t' t); cbn [filter]; exact IH.
Qed.
Lemma answers_broadcast t c bs k : answers t (broadcast_all E c bs k) = O.
Proof.
  unfold answers. assert (K : forall e, In e (broadcast_all E c bs k) ->
    match e with OSend (ByTask t') _ _ _ => Nat.eqb t' t | _ => false end = false).
  { intros e H. apply in_broadcast in H as (us & y & w & _ & _ & ->). reflexivity. }
  induction (broadcast_all E c bs k) as [|e l IH]; [reflexivity|]. cbn [filter].
  rewrite (K e (or_introl eq_refl)). apply IH. intros x Hx. apply K. right. exact Hx.
Qed.
Lemma answers_said kind t u n bs a : said E kind t u n bs a -> answers t a = 1%nat.
Proof.
  destruct kind as [[|] r]; cbn [said].
  - intros (x & ops & _ & _ & ->). unfold answers. cbn [filter length]. rewrite Nat.eqb_refl. reflexivity.
  - intros (_ & ->). unfold answers. cbn [filter length]. rewrite Nat.eqb_refl. reflexivity.
Qed.

Lemma task_of ls s tr t e : qrun E ls s tr -> In e tr -> about E t e = true ->
  exists j k, p_task s t = Some j /\ p_obj s (j_obj j) = Some k /\ shape E t j (k_uuid k) (life E t tr).
Proof.
  intros R IN A. pose proof (qrun_inv E _ _ _ R) as I.
  destruct (Nat.lt_ge_cases t (p_tasks s)) as [L|L]; [exact (i_task _ _ _ I t L)|].
  destruct (i_tfresh _ _ _ I t L) as (_ & N). apply (in_life E t tr e A) in IN. rewrite N in IN. elim IN.
Qed.

(** The list of events of a handler, in whatever stage it is. *)
Lemma shape_form t j u l : shape E t j u l -> exists h m rest,
  h_seq h = j_num j /\ q_for E m = Some (j_kind j) /\ l = OStart t (j_obj j) h m :: rest /\
  (forall o h' m', ~ In (OStart t o h' m') rest) /\ (answers t l <= 1)%nat /\
  (j_stage j = QDone -> In (OFail t) rest \/ (answers t l = 1%nat /\ In (ODeferred t) rest)).
Proof.
  intros (h & m & H1 & H2 & S). exists h, m.
  assert (NB : forall bs k o h' m', ~ In (OStart t o h' m') (broadcast_all E (Some t) bs k)).
  { intros bs k o h' m' W. apply in_broadcast in W as (us & y & w & _ & _ & W). discriminate W. }
  assert (NS : forall bs a o h' m', said E (j_kind j) t u (j_num j) bs a -> ~ In (OStart t o h' m') a).
  { intros bs a o h' m' W. destruct (j_kind j) as [[|] r]; cbn [said] in W.
    - destruct W as (x & ops & _ & _ & ->). intros [W|[W|[]]]; discriminate W.
    - destruct W as (_ & ->). intros [W|[]]; discriminate W. }
  assert (C1 : forall rest, answers t (OStart t (j_obj j) h m :: rest) = answers t rest) by reflexivity.
  destruct (j_stage j).
  - exists []. rewrite S. do 3 (split; [solve [auto]|]). split; [intros o h' m' []|]. split; [cbn; lia|]. intro W. discriminate W.
  - destruct S as (a & SA & ->). exists a. do 3 (split; [solve [auto]|]).
    split; [intros o h' m'; apply (NS _ _ _ _ _ SA)|].
    rewrite C1, (answers_said _ _ _ _ _ _ SA). split; [lia|]. intro W. discriminate W.
  - destruct S as (bs & a & SA & ->). eexists. do 3 (split; [solve [auto]|]).
    split; [intros o h' m' W; apply in_app_iff in W as [W|W]; [apply (NS _ _ _ _ _ SA W)|apply (NB _ _ _ _ _ W)]|].
    rewrite C1, answers_app, (answers_said _ _ _ _ _ _ SA), answers_broadcast. split; [lia|]. intro W. discriminate W.
  - destruct S as [->|(bs & a & SA & [->|[(n & _ & ->)|[->| ->]]])]; eexists; do 3 (split; [solve [auto]|]).
    + split; [intros o h' m' [W|[]]; discriminate W|]. split; [cbn; lia|]. intros _. left. left. reflexivity.
    + split; [intros o h' m' W; apply in_app_iff in W as [W|[W|[]]]; [apply (NS _ _ _ _ _ SA W)|discriminate W]|].
      rewrite C1, answers_app, (answers_said _ _ _ _ _ _ SA). split; [cbn; lia|]. intros _. left. apply in_app_iff. right. left. reflexivity.
    + split; [intros o h' m' W; apply in_app_iff in W as [W|W]; [apply (NS _ _ _ _ _ SA W)|];
        apply in_app_iff in W as [W|[W|[]]]; [apply (NB _ _ _ _ _ W)|discriminate W]|].
      rewrite C1, !answers_app, (answers_said _ _ _ _ _ _ SA), answers_broadcast. split; [cbn; lia|].
      intros _. left. apply in_app_iff. right. apply in_app_iff. right. left. reflexivity.
    + split; [intros o h' m' W; apply in_app_iff in W as [W|W]; [apply (NS _ _ _ _ _ SA W)|];
        apply in_app_iff in W as [W|[W|[]]]; [apply (NB _ _ _ _ _ W)|discriminate W]|].
      rewrite C1, !answers_app, (answers_said _ _ _ _ _ _ SA), answers_broadcast. split; [cbn; lia|].
      intros _. right. split; [reflexivity|]. apply in_app_iff. right. apply in_app_iff. right. left. reflexivity.
    + split; [intros o h' m' W; apply in_app_iff in W as [W|W]; [apply (NS _ _ _ _ _ SA W)|];
        apply in_app_iff in W as [W|[W|[W|[]]]]; [apply (NB _ _ _ _ _ W)|discriminate W..]|].
      rewrite C1, !answers_app, (answers_said _ _ _ _ _ _ SA), answers_broadcast. split; [cbn; lia|].
      intros _. left. apply in_app_iff. right. apply in_app_iff. right. right. left. reflexivity.
Qed.

(** A handler is called for one message, and gives at most one answer to it. *)
Theorem C87_answered_once : forall ls s tr t o h m,
  qrun E ls s tr -> In (OStart t o h m) tr ->
  (forall p1 p2, tr = p1 ++ OStart t o h m :: p2 ->
     forall o' h' m', ~ In (OStart t o' h' m') p1 /\ ~ In (OStart t o' h' m') p2) /\
  (answers t tr <= 1)%nat.
Proof.
  intros ls s tr t o h m R IN.
  assert (A : forall o h m, about E t (OStart t o h m) = true) by (intros; apply Nat.eqb_refl).
  destruct (task_of _ _ _ _ _ R IN (A o h m)) as (j & k & J & O & S).
  destruct (shape_form _ _ _ _ S) as (h0 & m0 & rest & _ & _ & LF & NS & AN & _).
  split; [|rewrite <- answers_life; exact AN].
  intros p1 p2 Q o' h' m'. rewrite Q, life_app in LF. unfold life at 2 in LF. cbn [filter] in LF. rewrite A in LF.
  fold (life E t p2) in LF.
  destruct (life E t p1) as [|e l1] eqn:L1; cbn [app] in LF.
  - injection LF as _ _ _ LF. split; intro W; apply (in_life E t _ _ (A o' h' m')) in W.
    + rewrite L1 in W. elim W.
    + apply (NS o' h' m'). rewrite <- LF. exact W.
  - injection LF as _ LF. exfalso. apply (NS o h m). rewrite <- LF. apply in_elt.
Qed.

(** ** C88: why a client is asked to leave *)

Definition cuts : Prop := q_cs E = ProducerModel.SDisc \/ q_cs E = ProducerModel.SEmitDisc.

Lemma split_not_in {A} (x : A) pre rest e1 e2 : pre ++ rest = e1 ++ x :: e2 -> ~ In x pre ->
  exists e1', e1 = pre ++ e1' /\ rest = e1' ++ x :: e2.
Proof.
  revert e1. induction pre as [|a pre IH]; intros e1 Q N; [exists e1; auto|].
  destruct e1 as [|b e1]; cbn [app] in Q.
  - injection Q as -> _. elim N. left. reflexivity.
  - injection Q as -> Q. destruct (IH e1 Q) as (e1' & -> & H); [intro W; apply N; right; exact W|].
    exists e1'. auto.
Qed.

Lemma receiving_ask u v e1 w e2 : receiving_err E u v = e1 ++ OAsk w :: e2 -> e1 = [] /\ w = u /\ cuts /\ v <> None.
Proof.
  unfold receiving_err, cuts. intro H. destruct (q_cs E), v; cbn [app] in H;
    (destruct e1 as [|? [|? [|? e1]]]; cbn [app] in H; try discriminate H; injection H; intros; subst;
     try discriminate; (split; [reflexivity|]); (split; [reflexivity|]); (split; [auto|discriminate])).
Qed.

Lemma by_ask tr s l s' e1 u e2 : inv E s tr -> fire E s l = Some (s', e1 ++ OAsk u :: e2) ->
  exists o k, p_obj s o = Some k /\ k_uuid k = u /\
   ((exists h m pw, e1 = [ORead o h m; OSend ByLoop u (h_seq h) (PHash false)] /\
       q_hash E m = Some pw /\ pw <> (q_proto E, q_work E)) \/
    (exists h m, e1 = [ORead o h m] /\ q_hash E m = None /\ q_self E m = false /\ k_hash k = false) \/
    (exists h m, e1 = [ORead o h m] /\ q_hash E m = None /\ k_hash k = true /\ k_key k = false) \/
    (cuts /\
      ((exists h m, e1 = [ORead o h m] /\ q_hash E m = None /\ q_for E m = None /\ k_hash k = true) \/
       (exists d n, e1 = [OChunk o d (TReturned (S n))]) \/
       (e1 = [] /\ k_disc k = true) \/
       (exists pre t j, e1 = pre ++ [OFail t] /\ p_task s t = Some j /\ j_obj j = o)))).
Proof.
  intros I F. assert (IN : In (OAsk u) (e1 ++ OAsk u :: e2)) by apply in_elt.
  destruct (fire_emits E _ _ _ _ F) as [(-> & o1 & c1 & L1 & O1 & C)|[(t1 & j1 & c1 & OT & L1 & HJ & HO & HS & C)|[(u1 & -> & L1 & C)|
    [(u1 & -> & C)|[(u1 & d1 & f1 & -> & L1 & C)|[(v1 & -> & C)|[(v1 & -> & C)|[(v1 & -> & C)|(ev1 & r1 & k1 & -> & C)]]]]]]]].
  - destruct C as [(Q1 & S1 & C)|(h1 & m1 & q1 & es1 & Q1 & C & T)]; [rewrite C in IN; elim IN|].
    destruct e1 as [|y e1]; [discriminate C|]. cbn [app] in C. injection C as -> C.
    assert (IN' : In (OAsk u) es1) by (rewrite <- C; apply in_elt).
    exists o1, c1. split; [exact O1|]. destruct T; try solve [noway IN'].
    + destruct e1 as [|y e1]; [discriminate C|]. cbn [app] in C. injection C as -> C.
      destruct e1 as [|y e1]; [|destruct e1 as [|? [|? e1]]; discriminate C]. cbn [app] in C. injection C as -> _.
      split; [reflexivity|]. left. exists h1, m1, pw. auto.
    + destruct e1 as [|y e1]; [|destruct e1 as [|? [|? e1]]; discriminate C]. cbn [app] in C. injection C as -> _.
      split; [reflexivity|]. right. left. exists h1, m1. auto.
    + destruct e1 as [|y e1]; [|destruct e1 as [|? [|? e1]]; discriminate C]. cbn [app] in C. injection C as -> _.
      split; [reflexivity|]. right. right. left. exists h1, m1. auto.
    + symmetry in C. apply receiving_ask in C as (-> & -> & CU & _). split; [reflexivity|].
      right. right. right. split; [exact CU|]. left. exists h1, m1. auto.
  - exists (j_obj j1), c1. split; [exact HO|].
    remember (e1 ++ OAsk u :: e2) as es eqn:ES. destruct C as [pre HP|y r ops KD bs RE|r KD|bs|]; try solve [noway IN].
    replace (pre ++ OFail t1 :: receiving_err E (k_uuid c1) (Some (j_obj j1)))
      with ((pre ++ [OFail t1]) ++ receiving_err E (k_uuid c1) (Some (j_obj j1))) in ES by (rewrite <- app_assoc; reflexivity).
    destruct (split_not_in _ _ _ _ _ ES) as (e1' & -> & RA).
    { clear -HP. intro W. apply in_app_iff in W as [W|[W|[]]]; [|discriminate W].
      destruct (HP _ W) as [X|(a & b & X)]; discriminate X. }
    apply receiving_ask in RA as (-> & -> & CU & _). rewrite app_nil_r. split; [reflexivity|].
    right. right. right. split; [exact CU|]. right. right. right. exists pre, t1, j1. auto.
  - destruct C as [(_ & C)|(_ & C)]; rewrite C in IN; noway IN.
  - destruct C as [(v & _ & C)|(_ & C)]; rewrite C in IN; noway IN.
  - destruct C as [(_ & C)|(o & k & MU & O & [(D & C)|(r & b & D & _ & C)])].
    + symmetry in C. apply receiving_ask in C as (_ & _ & _ & N). elim (N eq_refl).
    + symmetry in C. apply receiving_ask in C as (-> & -> & CU & _). exists o, k. split; [exact O|].
      split; [|right; right; right; auto 6].
      destruct (i_map _ _ _ I _ _ MU) as (k' & O' & U'). congruence.
    + destruct e1 as [|y e1]; [discriminate C|]. cbn [app] in C. injection C as -> C.
      destruct r as [[|n]|]; try (destruct e1; discriminate C).
      symmetry in C. apply receiving_ask in C as (-> & -> & CU & _). exists o, k. split; [exact O|].
      split; [destruct (i_map _ _ _ I _ _ MU) as (k' & O' & U'); congruence|]. right. right. right. split; [exact CU|]. right. left. eauto.
  - rewrite C in IN. noway IN.
  - rewrite C in IN. noway IN.
  - rewrite C in IN. noway IN.
  - destruct (C _ IN) as [W|(a & b & W)]; discriminate W.
Qed.

(** Every time the server asks the transport to disconnect a client, that client
    has sent wrong hashes, or a message before its hashes or its key; or the
    strategy says to disconnect, and the client has sent a message that the
    workflow does not know or that cannot be decoded, was discredited by the
    application, or a handler of one of its messages has failed. *)
Theorem C88_asked_for_cause : forall ls s tr p u q,
  qrun E ls s tr -> tr = p ++ OAsk u :: q ->
  exists o, In (OConnected u o) p /\
   ((exists p' h m pw, p = p' ++ [ORead o h m; OSend ByLoop u (h_seq h) (PHash false)] /\
       q_hash E m = Some pw /\ pw <> (q_proto E, q_work E)) \/
    (exists p' h m, p = p' ++ [ORead o h m] /\ q_hash E m = None /\ q_self E m = false /\ ~ In (OHash o) p') \/
    (exists p' h m, p = p' ++ [ORead o h m] /\ q_hash E m = None /\ forall b, ~ In (OKey o b) p') \/
    (cuts /\
      ((exists p' h m, p = p' ++ [ORead o h m] /\ q_hash E m = None /\ q_for E m = None /\ In (OHash o) p') \/
       (exists p' d n, p = p' ++ [OChunk o d (TReturned (S n))]) \/
       In (ODiscredit o) p \/
       (exists p' t h m, p = p' ++ [OFail t] /\ In (OStart t o h m) p')))).
Proof.
  intros ls s tr p u q R Q.
  destruct (qrun_split E _ _ _ R _ _ _ Q) as (ls1 & s1 & tr1 & l & s2 & e1 & e2 & R1 & F & -> & _).
  pose proof (qrun_inv E _ _ _ R1) as I. pose proof (qrun_flags E _ _ _ R1) as FL.
  destruct (by_ask _ _ _ _ _ _ _ I F) as (o & k & O & <- & C). specialize (FL o). rewrite O in FL.
  exists o. split; [apply in_app_iff; left; apply (i_conn _ _ _ I _ _ O)|].
  destruct C as [(h & m & pw & -> & C)|[(h & m & -> & C1 & C2 & C3)|[(h & m & -> & C1 & C2 & C3)|(CU & C)]]].
  - left. exists tr1, h, m, pw. auto.
  - right. left. exists tr1, h, m. repeat (split; [solve [auto]|]). intro W. apply (f_hash _ _ _ _ FL) in W. congruence.
  - right. right. left. exists tr1, h, m. repeat (split; [solve [auto]|]). intros b W.
    assert (W' : exists b, In (OKey o b) tr1) by (exists b; exact W). apply (f_key _ _ _ _ FL) in W'. congruence.
  - right. right. right. split; [exact CU|].
    destruct C as [(h & m & -> & C1 & C2 & C3)|[(d & n & ->)|[(-> & C)|(pre & t & j & -> & J & <-)]]].
    + left. exists tr1, h, m. repeat (split; [solve [auto]|]). apply (f_hash _ _ _ _ FL). exact C3.
    + right. left. eauto.
    + right. right. left. rewrite app_nil_r. apply (f_disc _ _ _ _ FL). exact C.
    + right. right. right. destruct (task_start _ _ _ _ _ I J O) as (h & m & S1 & _).
      exists (tr1 ++ pre), t, h, m. rewrite app_assoc. split; [reflexivity|]. apply in_app_iff. auto.
Qed.

(** What a client that keeps to the workflow sends on a connection: its key, the
    right hashes, and then requests and beacons of the workflow. *)
Definition known (x : header * M) : Prop := q_for E (snd x) <> None /\ q_hash E (snd x) = None.
Definition compliant (l : list (header * M)) : Prop :=
  match l with
  | [] => True
  | (_, m0) :: l1 => q_self E m0 = true /\ q_hash E m0 = None /\
    match l1 with
    | [] => True
    | (_, m1) :: l2 => q_self E m1 = false /\ q_hash E m1 = Some (q_proto E, q_work E) /\ Forall known l2
    end
  end.

Lemma compliant_prefix a b : compliant (a ++ b) -> compliant a.
Proof.
  destruct a as [|[h0 m0] [|[h1 m1] l]]; cbn [app compliant]; [auto|intros (H1 & H2 & _); auto|].
  intros (H1 & H2 & H3 & H4 & H5). apply Forall_app in H5. tauto.
Qed.

Lemma compliant_greeted ls s tr : qrun E ls s tr -> forall o c, p_obj s o = Some c -> compliant (reads E o tr) ->
  ((length (reads E o tr) <= 1)%nat -> k_hash c = false) /\
  ((1 <= length (reads E o tr))%nat -> k_key c = true) /\
  ((2 <= length (reads E o tr))%nat -> k_hash c = true).
Proof.
  induction 1 as [|ls s tr l s' es R IH F]; intros o c' O' CO; [discriminate O'|].
  pose proof (qrun_flags E _ _ _ (qrun_step E _ _ _ _ _ _ R F) o) as FL'. rewrite O' in FL'.
  pose proof (qrun_flags E _ _ _ R o) as FL.
  rewrite reads_app in *.
  (* nothing was read from [o] *)
  assert (SAME : reads E o es = [] -> ~ In (OHash o) es -> 
    ((length (reads E o tr ++ reads E o es) <= 1)%nat -> k_hash c' = false) /\
    ((1 <= length (reads E o tr ++ reads E o es))%nat -> k_key c' = true) /\
    ((2 <= length (reads E o tr ++ reads E o es))%nat -> k_hash c' = true)).
  { intros RE NH. rewrite RE, app_nil_r in *.
    assert (BH : In (OHash o) (tr ++ es) <-> In (OHash o) tr) by (rewrite in_app_iff; tauto).
    destruct (p_obj s o) as [c|] eqn:O.
    - destruct (IH o c O CO) as (I1 & I2 & I3). split; [|split]; intro L.
      + destruct (k_hash c') eqn:K; [|reflexivity]. apply (f_hash _ _ _ _ FL') in K. rewrite BH in K.
        apply (f_hash _ _ _ _ FL) in K. rewrite I1 in K by exact L. discriminate K.
      + apply (f_key _ _ _ _ FL'). specialize (I2 L). apply (f_key _ _ _ _ FL) in I2 as (b & I2).
        exists b. apply in_app_iff. auto.
      + apply (f_hash _ _ _ _ FL'). rewrite BH. apply (f_hash _ _ _ _ FL). auto.
    - pose proof (qrun_fed E _ _ _ R o) as FD. unfold fed in FD. rewrite O in FD. destruct FD as (_ & _ & FD).
      rewrite FD. cbn [length]. split; [|split; intro; lia]. intros _.
      destruct (k_hash c') eqn:K; [|reflexivity]. apply (f_hash _ _ _ _ FL') in K. rewrite BH in K. elim (FL _ K eq_refl). }
  assert (NR : (forall e, In e es -> noio E o e) -> reads E o es = []).
  { intro N. apply (noio_nil E o es N). }
  destruct (fire_emits E _ _ _ _ F) as [(-> & o1 & c1 & L1 & O1 & C)|[(t1 & j1 & c1 & OT & L1 & HJ & HO & HS & C)|[(u1 & -> & L1 & C)|
    [(u1 & -> & C)|[(u1 & d1 & f1 & -> & L1 & C)|[(v1 & -> & C)|[(v1 & -> & C)|[(v1 & -> & C)|(ev1 & r1 & k1 & -> & C)]]]]]]]].
  - destruct C as [(Q1 & S1 & C)|(h1 & m1 & q1 & es1 & Q1 & C & T)].
    { subst es. apply SAME; [reflexivity|intros []]. }
    destruct (Nat.eq_dec o1 o) as [->|NE].
    2:{ apply SAME.
        - apply NR. rewrite C. intros e [<-|He]; [cbn [noio]; auto|eapply turn_noio; eauto].
        - rewrite C. intros [W|W]; [discriminate W|]. destruct T; try solve [noway W].
          cbn [In] in W. destruct W as [W|[W|[]]]; [discriminate W|]. injection W as W. congruence. }
    rewrite O1 in FL. specialize (IH o c1 O1 (compliant_prefix _ _ CO)). destruct IH as (I1 & I2 & I3).
    assert (RE : reads E o es = [(h1, m1)]).
    { rewrite C. change (ORead o h1 m1 :: es1) with ([ORead o h1 m1] ++ es1). rewrite reads_app.
      rewrite (proj2 (proj2 (noio_nil E o es1 (turn_noio E _ _ _ _ _ _ _ T)))).
      unfold reads. cbn [flat_map]. rewrite Nat.eqb_refl. reflexivity. }
    rewrite RE in *.
    assert (KH : forall e, In e es1 -> e = OHash o -> k_hash c' = true).
    { intros e He ->. apply (f_hash _ _ _ _ FL'). rewrite C. apply in_app_iff. right. right. exact He. }
    assert (MONO : k_hash c1 = true -> k_hash c' = true).
    { intro K. apply (f_hash _ _ _ _ FL'). apply in_app_iff. left. apply (f_hash _ _ _ _ FL). exact K. }
    assert (MONK : k_key c1 = true -> k_key c' = true).
    { intro K. apply (f_key _ _ _ _ FL'). apply (f_key _ _ _ _ FL) in K as (b & K). exists b. apply in_app_iff. auto. }
    destruct (reads E o tr) as [|[h0 m0] l1] eqn:RD; cbn [app length] in *.
    + destruct CO as (C1 & C2 & _). assert (K0 : k_hash c1 = false) by (apply I1; lia).
      destruct T; try congruence.
      split; [|split; [|intro; lia]]; intros _.
      * destruct (k_hash c') eqn:K; [|reflexivity]. apply (f_hash _ _ _ _ FL') in K. rewrite C in K.
        apply in_app_iff in K as [K|K]; [apply (f_hash _ _ _ _ FL) in K; congruence|noway K].
      * apply (f_key _ _ _ _ FL'). exists false. rewrite C. apply in_app_iff. right. right. left. reflexivity.
    + destruct CO as (C1 & C2 & C3). rewrite app_length. cbn [length].
      destruct l1 as [|[h2 m2] l2]; cbn [app length] in *.
      * destruct C3 as (C3 & C4 & _). assert (K0 : k_hash c1 = false) by (apply I1; lia).
        split; [intro; lia|]. split; [intros _; apply MONK, I2; lia|]. intros _.
        destruct T; try congruence. eapply KH; [|reflexivity]. right. left. reflexivity.
      * split; [intro; lia|]. split; [intros _; apply MONK, I2; lia|]. intros _. apply MONO, I3. lia.
  - apply SAME; [apply NR; eapply tstep_noio; exact C|]. intro W. destruct C as [pre HP|y r ops KD bs RE|r KD|bs|]; noway W.
  - apply SAME; [apply NR; destruct C as [(_ & ->)|(_ & ->)]; intros e [<-|[]]; exact I|].
    destruct C as [(_ & ->)|(_ & ->)]; intro W; noway W.
  - apply SAME; [apply NR; destruct C as [(v & _ & ->)|(_ & ->)]; intros e [<-|[]]; exact I|].
    destruct C as [(v & _ & ->)|(_ & ->)]; intro W; noway W.
  - destruct C as [(_ & C)|(v & k & _ & _ & [(_ & C)|(r & b & _ & _ & C)])]; rewrite C in *.
    + apply SAME; [apply NR; intros e He; eapply receiving_noio; exact He|intro W; noway W].
    + apply SAME; [apply NR; intros e He; eapply receiving_noio; exact He|intro W; noway W].
    + apply SAME; [|intro W; noway W].
      change (OChunk v d1 r :: match r with TReturned (S _) => receiving_err E u1 (Some v) | _ => [] end)
        with ([OChunk v d1 r] ++ match r with TReturned (S _) => receiving_err E u1 (Some v) | _ => [] end).
      rewrite reads_app.
      rewrite (proj2 (proj2 (noio_nil E o (match r with TReturned (S _) => receiving_err E u1 (Some v) | _ => [] end)
        ltac:(intros e He; destruct r as [[|n]|]; try (elim He); eapply receiving_noio; exact He)))). reflexivity.
  - rewrite C in *. apply SAME; [reflexivity|intro W; noway W].
  - rewrite C in *. apply SAME; [reflexivity|intro W; noway W].
  - rewrite C in *. apply SAME; [reflexivity|intro W; noway W].
  - apply SAME; [|intro W; noway W]. apply NR. intros e He. destruct (C e He) as [->|(w & y & ->)]; exact I.
Qed.

(** A client that keeps to the workflow, whose data decodes, whom the application
    does not discredit and whose handlers do not fail is not asked to leave. *)
Theorem C88_compliant_client_stays : forall ls s tr u,
  qrun E ls s tr ->
  (forall o, In (OConnected u o) tr ->
     compliant (reads E o tr) /\
     (forall d n, ~ In (OChunk o d (TReturned (S n))) tr) /\
     ~ In (ODiscredit o) tr /\
     (forall t h m, In (OStart t o h m) tr -> ~ In (OFail t) tr)) ->
  ~ In (OAsk u) tr.
Proof.
  intros ls s tr u R H IN. apply in_split in IN as (p & q & Q).
  destruct (qrun_split E _ _ _ R _ _ _ Q) as (ls1 & s1 & tr1 & l & s2 & e1 & e2 & R1 & F & -> & q' & HQ).
  pose proof (qrun_inv E _ _ _ R1) as I.
  destruct (by_ask _ _ _ _ _ _ _ I F) as (o & k & O & <- & C).
  assert (INP : forall e, In e tr1 \/ In e e1 -> In e tr).
  { intros e W. rewrite Q. apply in_app_iff. left. apply in_app_iff. exact W. }
  destruct (H o (INP _ (or_introl (i_conn _ _ _ I _ _ O)))) as (H1 & H2 & H3 & H4).
  assert (CP : forall h m, e1 = [ORead o h m] \/ (exists x, e1 = [ORead o h m; x]) -> compliant (reads E o tr1 ++ [(h, m)])).
  { intros h m W. apply (compliant_prefix _ (reads E o (skipn 1 (e1 ++ OAsk (k_uuid k) :: q)))).
    replace ((reads E o tr1 ++ [(h, m)]) ++ reads E o (skipn 1 (e1 ++ OAsk (k_uuid k) :: q))) with (reads E o tr); [exact H1|].
    rewrite Q, <- app_assoc, reads_app, <- app_assoc. f_equal.
    destruct W as [->|(x & ->)]; cbn [app skipn]; unfold reads; cbn [flat_map app]; rewrite Nat.eqb_refl; reflexivity. }
  assert (GR : forall h m, compliant (reads E o tr1 ++ [(h, m)]) ->
    (k_hash k = false /\ q_self E m = true /\ q_hash E m = None) \/
    (k_key k = true /\ q_hash E m = Some (q_proto E, q_work E)) \/
    (k_key k = true /\ k_hash k = true /\ known (h, m))).
  { intros h m W. destruct (compliant_greeted _ _ _ R1 o k O (compliant_prefix _ _ W)) as (G1 & G2 & G3).
    destruct (reads E o tr1) as [|[h0 m0] [|[h2 m2] l2]]; cbn [app compliant length] in *.
    - left. split; [apply G1; lia|tauto].
    - right. left. split; [apply G2; lia|tauto].
    - right. right. split; [apply G2; lia|]. split; [apply G3; lia|].
      destruct W as (_ & _ & _ & _ & W). apply Forall_app in W as (_ & W). inversion W. assumption. }
  destruct C as [(h & m & pw & -> & C1 & C2)|[(h & m & -> & C1 & C2 & C3)|[(h & m & -> & C1 & C2 & C3)|(_ & C)]]].
  - destruct (GR h m (CP h m (or_intror (ex_intro _ _ eq_refl)))) as [(_ & _ & W)|[(_ & W)|(_ & _ & _ & W)]]; cbn [snd] in *; congruence.
  - destruct (GR h m (CP h m (or_introl eq_refl))) as [(_ & W & _)|[(_ & W)|(_ & W & _)]]; congruence.
  - destruct (GR h m (CP h m (or_introl eq_refl))) as [(W & _)|[(W & _)|(W & _)]]; congruence.
  - destruct C as [(h & m & -> & C1 & C2 & C3)|[(d & n & ->)|[(-> & C)|(pre & t & j & -> & J & <-)]]].
    + destruct (GR h m (CP h m (or_introl eq_refl))) as [(W & _)|[(_ & W)|(_ & _ & W & _)]]; cbn [snd] in *; congruence.
    + apply (H2 d n). apply INP. right. left. reflexivity.
    + pose proof (qrun_flags E _ _ _ R1 o) as FL. rewrite O in FL. apply H3, INP. left. apply (f_disc _ _ _ _ FL). exact C.
    + destruct (task_start _ _ _ _ _ I J O) as (h & m & S1 & _). apply (H4 t h m); apply INP; [left; exact S1|].
      right. apply in_app_iff. right. left. reflexivity.
Qed.

(** ** C89: what is read *)

(** However the data of a connection is cut, its messages are taken in order and
    none is lost; between two pieces of data none is left, if every message can be
    decoded and, once the hashes were accepted, belongs to the workflow. *)
Theorem C89_reads_what_came_partial : forall ls s tr o ps tail,
  qrun E ls s tr ->
  concat (chunks E o tr) = stream ps ++ tail ->
  Forall packet_ok ps -> Forall (quiet (q_get E) (q_sig E)) ps -> no_packet tail ->
  blen (stream ps ++ tail) < 2 ^ 64 ->
  exists left, reads E o tr ++ left = flat_map (deliver (q_get E) (q_sig E)) ps /\
    (p_loop s <> Some o ->
     (forall p, In p ps -> exists m, q_get E (p_id p) (p_body p) = Ok m) ->
     (forall p h m q, tr = p ++ ORead o h m :: q -> In (OHash o) p -> q_hash E m <> None \/ q_for E m <> None) ->
     left = []).
Proof.
  intros ls s tr o ps tail R Q Hok Hq Ht Hl.
  pose proof (qrun_fed E _ _ _ R o) as FD. unfold fed in FD.
  destruct (ts_feed_all (q_get E) (q_sig E) (chunks E o tr) ps tail (mkBuf [] [])) as (ns & G & S); auto.
  { exists []. split; [reflexivity|]. intros p r Hp C. symmetry in C. apply app_eq_nil in C as (C & _).
    apply (f_equal blen) in C. rewrite wire_blen in C. unfold blen in C. cbn in C. lia. }
  destruct (p_obj s o) as [c|].
  2:{ destruct FD as (F1 & F2 & F3). exists []. rewrite F3. rewrite F1 in G. inversion G. cbn [app]. auto. }
  destruct FD as (F & D).
  destruct (ts_feeds_fun _ _ _ _ _ _ F _ _ G) as (Ho & Hb). injection Hb as _ Hb.
  exists (rb_queue (k_buf c)). split; [exact Hb|].
  intros Rest Good Known. destruct (rb_queue (k_buf c)) as [|x l] eqn:QQ; [reflexivity|].
  exfalso. destruct (D Rest) as [(os & y & Hos & No)|(p & h & m & q & Htr & W1 & W2 & W3)]; [discriminate| |].
  2:{ destruct (Known p h m q Htr W3); congruence. }
  rewrite Ho in Hos.
  assert (Z : count_bad (q_get E) (q_sig E) ps = O).
  { unfold count_bad. rewrite Forall_forall in Hq.
    replace (filter (badb (q_get E) (q_sig E)) ps) with (@nil packet); [reflexivity|].
    symmetry. clear -Hq Good. induction ps as [|p ps IH]; [reflexivity|]. cbn [filter].
    destruct (Hq p (or_introl eq_refl)) as (Sg & _). destruct (Good p (or_introl eq_refl)) as (m & Hm).
    unfold badb, deliver. rewrite Sg, N.eqb_refl, Hm. apply IH.
    - intros y Hy. apply Hq. right. exact Hy.
    - intros y Hy. apply Good. right. exact Hy. }
  rewrite Z in S.
  assert (exists n, In n ns /\ y = TReturned n) as (n & Hn & ->).
  { assert (IN : In y (map TReturned ns)) by (rewrite Hos; apply in_elt).
    apply in_map_iff in IN. destruct IN as (n & <- & Hn). eauto. }
  assert (n = O).
  { clear -S Hn. induction ns as [|k ns IH]; [destruct Hn|]. change (k + list_sum ns = 0)%nat in S.
    destruct Hn as [<-|Hn]; [lia|]. apply IH; [lia|exact Hn]. }
  congruence.
Qed.

(** ** C90: connected and disconnected *)

Definition names (u : N) (e : qev) : bool :=
  match e with OConnected v _ | ODisconnected v _ => v =? u | _ => false end.
Definition open_of (u : N) (tr : list qev) : option nat :=
  fold_left (fun acc e => match e with
                          | OConnected v o => if v =? u then Some o else acc
                          | ODisconnected v _ => if v =? u then None else acc
                          | _ => acc
                          end) tr None.

Lemma open_app u a es : open_of u (a ++ es) =
  fold_left (fun acc (e : qev) => match e with
                          | OConnected v o => if v =? u then Some o else acc
                          | ODisconnected v _ => if v =? u then None else acc
                          | _ => acc
                          end) es (open_of u a).
Proof. unfold open_of. apply fold_left_app. Qed.

Lemma open_quiet u a es : (forall e, In e es -> names u e = false) -> open_of u (a ++ es) = open_of u a.
Proof.
  intro H. rewrite open_app. generalize (open_of u a) as acc. induction es as [|e es IH]; intro acc; [reflexivity|].
  cbn [fold_left]. rewrite IH by (intros x Hx; apply H; right; exact Hx).
  pose proof (H e (or_introl eq_refl)) as He. destruct e; cbn [names] in He; try reflexivity; rewrite He; reflexivity.
Qed.

Lemma open_some u tr o : open_of u tr = Some o -> exists p1 p2, tr = p1 ++ OConnected u o :: p2 /\
  forall e, In e p2 -> names u e = false.
Proof.
  induction tr as [|e tr IH] using rev_ind; intro H; [discriminate H|].
  destruct (names u e) eqn:NM.
  - rewrite open_app in H. cbn [fold_left] in H. destruct e; cbn [names] in NM; try discriminate NM; rewrite NM in H.
    + injection H as ->. apply N.eqb_eq in NM. subst. exists tr, []. split; [reflexivity|intros x []].
    + discriminate H.
  - rewrite open_quiet in H by (intros x [<-|[]]; exact NM). destruct (IH H) as (p1 & p2 & -> & N).
    exists p1, (p2 ++ [e]). rewrite <- app_assoc. split; [reflexivity|].
    intros x Hx. apply in_app_iff in Hx as [Hx|[<-|[]]]; auto.
Qed.

Lemma open_none u tr : open_of u tr = None -> forall p1 o p2, tr = p1 ++ OConnected u o :: p2 ->
  exists o2, In (ODisconnected u o2) p2.
Proof.
  induction tr as [|e tr IH] using rev_ind; intros H p1 o p2 Q; [destruct p1; discriminate Q|].
  destruct p2 as [|x p2] using rev_ind.
  - apply app_inj_tail in Q as (-> & ->). rewrite open_app in H. cbn [fold_left] in H. rewrite N.eqb_refl in H. discriminate H.
  - clear IHp2. replace (p1 ++ OConnected u o :: p2 ++ [x]) with ((p1 ++ OConnected u o :: p2) ++ [x]) in Q
      by (rewrite <- app_assoc; reflexivity).
    apply app_inj_tail in Q as (Q & <-). destruct (names u e) eqn:NM.
    + rewrite open_app in H. cbn [fold_left] in H. destruct e; cbn [names] in NM; try discriminate NM; rewrite NM in H; [discriminate H|].
      apply N.eqb_eq in NM. subst. eexists. apply in_app_iff. right. left. reflexivity.
    + rewrite open_quiet in H by (intros y [<-|[]]; exact NM). destruct (IH H _ _ _ Q) as (o2 & W).
      exists o2. apply in_app_iff. auto.
Qed.

Lemma qrun_open ls s tr : qrun E ls s tr -> forall u, p_map s u = open_of u tr.
Proof.
  induction 1 as [|ls s tr l s' es R IH F]; intro u; [reflexivity|].
  assert (SAME : p_map s' u = p_map s u -> (forall e, In e es -> names u e = false) -> p_map s' u = open_of u (tr ++ es)).
  { intros P N. rewrite open_quiet by exact N. rewrite P. apply IH. }
  assert (NRE : forall v o e, In e (receiving_err E v o) -> names u e = false).
  { intros v o e H. apply in_receiving in H as [(-> & _)| ->]; reflexivity. }
  destruct (fire_emits E _ _ _ _ F) as [(-> & o1 & c1 & L1 & O1 & C)|[(t1 & j1 & c1 & OT & L1 & HJ & HO & HS & C)|[(u1 & -> & L1 & C)|
    [(u1 & -> & C)|[(u1 & d1 & f1 & -> & L1 & C)|[(v1 & -> & C)|[(v1 & -> & C)|[(v1 & -> & C)|(ev1 & r1 & k1 & -> & C)]]]]]]]].
  - destruct C as [(Q1 & -> & ->)|(h1 & m1 & q1 & es1 & Q1 & -> & T)]; [apply SAME; [reflexivity|intros e []]|].
    destruct (next_state E _ _ _ _ _ _ _ _ F L1 O1 Q1) as (_ & P & _). apply SAME; [rewrite P; reflexivity|].
    intros e [<-|He]; [reflexivity|].
    destruct T; try (eapply NRE; exact He); cbn [In] in He; repeat destruct He as [He|He]; try (elim He); subst; reflexivity.
  - destruct (task_state E _ _ _ _ _ OT F) as (P & _). apply SAME; [rewrite P; reflexivity|]. intros e He.
    destruct C as [pre HP|y r ops KD bs RE|r KD|bs|].
    + apply in_app_iff in He as [He|[<-|He]]; [|reflexivity|eapply NRE; exact He].
      destruct (HP e He) as [->|(w & y & ->)]; reflexivity.
    + destruct He as [<-|[<-|[]]]; reflexivity.
    + destruct He as [<-|[]]; reflexivity.
    + apply in_broadcast in He as (us & y & w & _ & _ & ->). reflexivity.
    + destruct He as [<-|[]]; reflexivity.
  - cbn [fire] in F. rewrite L1 in F. destruct C as [(MU & ->)|(MU & ->)].
    + rewrite MU in F. injection F as <-. rewrite open_app. cbn [fold_left p_map]. unfold updk.
      rewrite N.eqb_sym. destruct (u1 =? u); [reflexivity|apply IH].
    + destruct (p_map s u1); [|elim (MU eq_refl)]. injection F as <-. apply SAME; [reflexivity|]. intros e [<-|[]]; reflexivity.
  - cbn [fire] in F. destruct C as [(v & MU & ->)|(MU & ->)]; rewrite MU in F; injection F as <-.
    + rewrite open_app. cbn [fold_left p_map]. unfold updk. rewrite N.eqb_sym. destruct (u1 =? u); [reflexivity|apply IH].
    + apply SAME; [reflexivity|]. intros e [<-|[]]; reflexivity.
  - assert (P : p_map s' = p_map s).
    { cbn [fire] in F. rewrite L1 in F. destruct C as [(MU & C)|(v & k & MU & O & [(D & C)|(r & b & D & T & C)])]; rewrite MU in F.
      - injection F as <- _. reflexivity.
      - rewrite O, D in F. injection F as <- _. reflexivity.
      - rewrite O, D, T in F. destruct r as [[|n]|]; injection F as <- _; reflexivity. }
    apply SAME; [rewrite P; reflexivity|]. intros e He.
    destruct C as [(_ & ->)|(v & k & _ & _ & [(_ & ->)|(r & b & _ & _ & ->)])]; try (eapply NRE; exact He).
    destruct He as [<-|He]; [reflexivity|]. destruct r as [[|n]|]; try (elim He). eapply NRE; exact He.
  - cbn [fire] in F. destruct (p_obj s v1); [|discriminate F]. injection F as <- _. rewrite C in *.
    apply SAME; [reflexivity|]. intros e [<-|[]]; reflexivity.
  - cbn [fire] in F. destruct (p_obj s v1); [|discriminate F]. injection F as <- _. rewrite C in *.
    apply SAME; [reflexivity|]. intros e [<-|[]]; reflexivity.
  - cbn [fire] in F. destruct (p_obj s v1); [|discriminate F]. injection F as <- _. rewrite C in *.
    apply SAME; [reflexivity|]. intros e [<-|[]]; reflexivity.
  - rewrite (event_state E _ _ _ _ _ _ F) in *. apply SAME; [reflexivity|].
    intros e He. destruct (C e He) as [->|(w & y & ->)]; reflexivity.
Qed.

Lemma by_connected s l s' e1 u o e2 : fire E s l = Some (s', e1 ++ OConnected u o :: e2) ->
  e1 = [] /\ p_map s u = None /\ o = p_objs s.
Proof.
  intro F. assert (IN : In (OConnected u o) (e1 ++ OConnected u o :: e2)) by apply in_elt.
  cases F IN.
  - rewrite C in IN. destruct IN as [IN|IN]; [discriminate IN|]. destruct T; noway IN.
  - destruct e1 as [|x e1]; [|destruct e1; discriminate C]. cbn [app] in C. injection C as -> -> ->. auto.
Qed.
Lemma by_disconnected s l s' e1 u o e2 : fire E s l = Some (s', e1 ++ ODisconnected u o :: e2) ->
  e1 = [] /\ p_map s u = Some o.
Proof.
  intro F. assert (IN : In (ODisconnected u o) (e1 ++ ODisconnected u o :: e2)) by apply in_elt.
  cases F IN.
  - rewrite C in IN. destruct IN as [IN|IN]; [discriminate IN|]. destruct T; noway IN.
  - destruct e1 as [|x e1]; [|destruct e1; discriminate C]. cbn [app] in C. injection C as -> -> ->. auto.
Qed.

(** The application is told of a new client, with an object it has not seen before,
    only when the previous client with that uuid is gone; and that a client is gone
    only after it was told of that client and nothing of the same uuid since. *)
Theorem C90_paired : forall ls s tr, qrun E ls s tr ->
  (forall p u o q, tr = p ++ OConnected u o :: q ->
     (forall v, ~ In (OConnected v o) p) /\
     forall p1 o1 p2, p = p1 ++ OConnected u o1 :: p2 -> exists o2, In (ODisconnected u o2) p2) /\
  (forall p u o q, tr = p ++ ODisconnected u o :: q ->
     exists p1 p2, p = p1 ++ OConnected u o :: p2 /\
       forall v, ~ In (OConnected u v) p2 /\ ~ In (ODisconnected u v) p2).
Proof.
  intros ls s tr R. split; intros p u o q Q;
    destruct (qrun_split E _ _ _ R _ _ _ Q) as (ls1 & s1 & tr1 & l & s2 & e1 & e2 & R1 & F & P & _).
  - destruct (by_connected _ _ _ _ _ _ _ F) as (-> & MU & ->). rewrite app_nil_r in P. subst p. split.
    + intros v W. destruct (i_made _ _ _ (qrun_inv E _ _ _ R1) _ _ W) as (c & O & _).
      rewrite (i_fresh _ _ _ (qrun_inv E _ _ _ R1)) in O by apply le_n. discriminate O.
    + rewrite (qrun_open _ _ _ R1) in MU. apply open_none. exact MU.
  - destruct (by_disconnected _ _ _ _ _ _ _ F) as (-> & MU). rewrite app_nil_r in P. subst p.
    rewrite (qrun_open _ _ _ R1) in MU. destruct (open_some _ _ _ MU) as (p1 & p2 & -> & N). exists p1, p2.
    split; [reflexivity|]. intro v. split; intro W; apply N in W; cbn [names] in W; rewrite N.eqb_refl in W; discriminate W.
Qed.

(** ** C91: broadcasts *)

Lemma method_in acts ref a : method acts ref = Some a -> In a acts /\ exists opt, In (ref, opt) (a_bcast a).
Proof.
  unfold method. assert (K : forall found, (forall b, found = Some b -> In b acts /\ exists opt, In (ref, opt) (a_bcast b)) ->
    forall l, (forall x, In x l -> In x acts) ->
    forall b, fold_left (fun found a => if existsb (fun b => fst b =? ref) (a_bcast a) then Some a else found) l found = Some b ->
    In b acts /\ exists opt, In (ref, opt) (a_bcast b)).
  { intros found H l. revert found H. induction l as [|x l IH]; intros found H S b; cbn [fold_left]; [apply H|].
    apply IH; [|intros y Hy; apply S; right; exact Hy]. intros b' Hb'.
    destruct (existsb (fun b => fst b =? ref) (a_bcast x)) eqn:EX; [|apply H; exact Hb']. injection Hb' as <-.
    split; [apply S; left; reflexivity|]. apply existsb_exists in EX as ((r & opt) & H1 & H2). cbn [fst] in H2.
    apply N.eqb_eq in H2. subst r. exists opt. exact H1. }
  intro H. apply (K None) with (l := acts); auto. intros b W. discriminate W.
Qed.

Lemma build_ok acts x ops : let bs := r_bs (build E acts x ops) in
  NoDup (map (fun b => q_id E (snd b)) bs) /\
  (forall b, In b bs -> In b ops /\
     exists a opt, In a acts /\ a_resp a = q_id E x /\ In (q_id E (snd b), opt) (a_bcast a)) /\
  r_msg (build E acts x ops) = x.
Proof.
  unfold build. destruct (many acts); [|cbn [r_bs r_msg map]; split; [constructor|]; split; [intros b []|reflexivity]].
  assert (K : forall l r, (forall y, In y l -> In y ops) -> r_msg r = x ->
    NoDup (map (fun b => q_id E (snd b)) (r_bs r)) ->
    (forall b, In b (r_bs r) -> In b ops /\ exists a opt, In a acts /\ a_resp a = q_id E x /\ In (q_id E (snd b), opt) (a_bcast a)) ->
    let r' := fold_left (add_broadcast E acts) l r in
    NoDup (map (fun b => q_id E (snd b)) (r_bs r')) /\
    (forall b, In b (r_bs r') -> In b ops /\ exists a opt, In a acts /\ a_resp a = q_id E x /\ In (q_id E (snd b), opt) (a_bcast a)) /\
    r_msg r' = x).
  { induction l as [|op l IH]; intros r S XM ND DE; cbn [fold_left]; [auto|].
    apply IH; [intros y Hy; apply S; right; exact Hy| | |].
    - unfold add_broadcast. destruct (method acts (q_id E (snd op))); [|exact XM].
      destruct (negb _); [exact XM|]. destruct (existsb _ _); exact XM.
    - unfold add_broadcast. destruct (method acts (q_id E (snd op))) as [a|]; [|exact ND].
      destruct (negb _); [exact ND|]. destruct (existsb _ _) eqn:EX; [exact ND|]. cbn [r_bs].
      rewrite map_app. cbn [map].
      apply (NoDup_Add (a := q_id E (snd op)) (l := map (fun b => q_id E (snd b)) (r_bs r))).
      + rewrite <- (app_nil_r (map (fun b => q_id E (snd b)) (r_bs r))) at 1. apply Add_app.
      + split; [exact ND|]. intro W. apply in_map_iff in W as (b & W1 & W2).
        assert (EX' : existsb (fun b => q_id E (snd b) =? q_id E (snd op)) (r_bs r) = true).
        { apply existsb_exists. exists b. split; [exact W2|]. apply N.eqb_eq. exact W1. }
        rewrite EX' in EX. discriminate EX.
    - unfold add_broadcast. destruct (method acts (q_id E (snd op))) as [a|] eqn:ME; [|exact DE].
      destruct (q_id E (r_msg r) =? a_resp a) eqn:AR; cbn [negb]; [|exact DE].
      destruct (existsb _ _); [exact DE|]. cbn [r_bs]. intros b W. apply in_app_iff in W as [W|[<-|[]]]; [apply DE; exact W|].
      split; [apply S; left; reflexivity|]. apply method_in in ME as (M1 & opt & M2). exists a, opt.
      split; [exact M1|]. split; [|exact M2]. apply N.eqb_eq in AR. rewrite XM in AR. congruence. }
  apply (K ops (mkRobj x [])); auto; [constructor|intros b []].
Qed.

Lemma not_lacking bs ds ref : lacks E bs ds = false -> In (ref, false) ds -> exists b, In b bs /\ q_id E (snd b) = ref.
Proof.
  unfold lacks. intros H IN.
  destruct (has_broadcast E bs ref) eqn:HB.
  - apply existsb_exists in HB as (b & H1 & H2). apply N.eqb_eq in H2. eauto.
  - exfalso. assert (W : existsb (fun d => negb (snd d) && negb (has_broadcast E bs (fst d))) ds = true).
    { apply existsb_exists. exists (ref, false). split; [exact IN|]. cbn [fst snd]. rewrite HB. reflexivity. }
    rewrite W in H. discriminate H.
Qed.

Lemma said_result kind t u n bs a x bs' : said E kind t u n bs a -> In (OResult t x bs') a ->
  bs' = bs /\ exists r ops, kind = (true, r) /\ bs = r_bs (build E (q_req E r) x ops) /\
    (many (q_req E r) = true -> response_error E (q_req E r) (build E (q_req E r) x ops) = false).
Proof.
  destruct kind as [[|] r]; cbn [said].
  - intros (y & ops & H1 & H2 & ->) [W|[W|[]]]; [|discriminate W]. injection W as -> ->.
    split; [reflexivity|]. exists r, ops. auto.
  - intros (_ & ->) [W|[]]. discriminate W.
Qed.

(** The broadcasts of a request with several actions. *)
Theorem C91_broadcasts_partial : forall ls s tr t o h m r,
  qrun E ls s tr -> In (OStart t o h m) tr -> q_for E m = Some (true, r) ->
  (forall u y, In (OBroad (Some t) u y) tr -> exists x bs us,
     In (OResult t x bs) tr /\ In (us, y) bs /\ In u us) /\
  (forall x bs, In (OResult t x bs) tr ->
     NoDup (map (fun b => q_id E (snd b)) bs) /\
     (forall b, In b bs -> exists a opt, In a (q_req E r) /\ a_resp a = q_id E x /\ In (q_id E (snd b), opt) (a_bcast a)) /\
     ((1 < length (q_req E r))%nat -> forall a ref, In a (q_req E r) -> a_resp a = q_id E x ->
        In (ref, false) (a_bcast a) -> exists b, In b bs /\ q_id E (snd b) = ref) /\
     (In (ODeferred t) tr -> forall us y u, In (us, y) bs -> In u us -> In (OBroad (Some t) u y) tr)).
Proof.
  intros ls s tr t o h m r R IN FM.
  assert (A : forall o h m, about E t (OStart t o h m) = true) by (intros; apply Nat.eqb_refl).
  assert (AB : forall u y, about E t (OBroad (Some t) u y) = true) by (intros; apply Nat.eqb_refl).
  assert (AR : forall x bs, about E t (OResult t x bs) = true) by (intros; apply Nat.eqb_refl).
  assert (AD : about E t (ODeferred t) = true) by apply Nat.eqb_refl.
  destruct (task_of _ _ _ _ _ R IN (A o h m)) as (j & k & J & O & S).
  destruct (shape_form _ _ _ _ S) as (h0 & m0 & rest & H1 & H2 & LF & NS & _).
  assert (KD : j_kind j = (true, r)).
  { apply (in_life E t tr _ (A o h m)) in IN. rewrite LF in IN. destruct IN as [W|W]; [|elim (NS _ _ _ W)].
    injection W as _ _ <-. congruence. }
  (* the broadcasts that were sent are those of the result *)
  assert (NBR : forall l bs' x bs k', l = broadcast_all E (Some t) bs k' -> ~ In (OResult t x bs') l).
  { intros l bs' x bs k' -> W. apply in_broadcast in W as (? & ? & ? & _ & _ & W). discriminate W. }
  assert (FULL : forall (bs : list (list N * X)) us y u, In (us, y) bs -> In u us -> In (OBroad (Some t) u y) (broadcast_all E (Some t) bs None)).
  { intros bs us y u W1 W2. unfold broadcast_all. apply in_flat_map. exists (us, y). split; [exact W1|].
    apply in_map_iff. exists u. auto. }
  assert (NDB : forall bs k', ~ In (ODeferred t) (broadcast_all E (Some t) bs k')).
  { intros bs k' W. apply in_broadcast in W as (? & ? & ? & _ & _ & W). discriminate W. }
  assert (NDS : forall bs a, said E (j_kind j) t (k_uuid k) (j_num j) bs a -> ~ In (ODeferred t) a).
  { intros bs a SA W. rewrite KD in SA. destruct SA as (? & ? & _ & _ & ->). destruct W as [W|[W|[]]]; discriminate W. }
  assert (FORM : rest = [] \/ rest = [OFail t] \/ exists bs a b f, said E (j_kind j) t (k_uuid k) (j_num j) bs a /\
    rest = a ++ b ++ f /\ (b = [] \/ exists k', b = broadcast_all E (Some t) bs k') /\
    (forall e, In e f -> e = OFail t \/ (e = ODeferred t /\ b = broadcast_all E (Some t) bs None))).
  { destruct S as (h2 & m2 & _ & _ & S). rewrite LF in S. destruct (j_stage j).
    - injection S as _ _ ->. auto.
    - destruct S as (a & SA & S). injection S as _ _ ->. right. right. exists bs, a, [], []. rewrite !app_nil_r.
      split; [exact SA|]. split; [reflexivity|]. split; [auto|]. intros e [].
    - destruct S as (bs & a & SA & S). injection S as _ _ ->. right. right. exists bs, a, (broadcast_all E (Some t) bs None), [].
      rewrite app_nil_r. split; [exact SA|]. split; [reflexivity|]. split; [eauto|]. intros e [].
    - destruct S as [S|(bs & a & SA & S)]; [injection S as _ _ ->; auto|]. right. right. exists bs, a.
      destruct S as [S|[(n & _ & S)|[S|S]]]; injection S as _ _ ->.
      + exists [], [OFail t]. split; [exact SA|]. split; [reflexivity|]. split; [auto|]. intros e [<-|[]]. auto.
      + exists (broadcast_all E (Some t) bs (Some n)), [OFail t]. split; [exact SA|]. split; [reflexivity|]. split; [eauto|].
        intros e [<-|[]]. auto.
      + exists (broadcast_all E (Some t) bs None), [ODeferred t]. split; [exact SA|]. split; [reflexivity|]. split; [eauto|].
        intros e [<-|[]]. auto.
      + exists (broadcast_all E (Some t) bs None), [ODeferred t; OFail t]. split; [exact SA|]. split; [reflexivity|]. split; [eauto|].
        intros e [<-|[<-|[]]]; auto. }
  split.
  - intros u y W. apply (in_life E t tr _ (AB u y)) in W. rewrite LF in W. destruct W as [W|W]; [discriminate W|].
    destruct FORM as [->|[->|(bs & a & b & f & SA & -> & FB & FF)]]; [elim W|destruct W as [W|[]]; discriminate W|].
    rewrite KD in SA. destruct SA as (x & ops & HB & _ & ->).
    apply in_app_iff in W as [[W|[W|[]]]|W]; try discriminate W. apply in_app_iff in W as [W|W].
    2:{ destruct (FF _ W) as [X|(X & _)]; discriminate X. }
    destruct FB as [->|(k' & ->)]; [elim W|]. apply in_broadcast in W as (us & z & v & W1 & W2 & W3). injection W3 as -> ->.
    exists x, bs, us. split; [|auto]. apply (in_life E t tr _ (AR x bs)). rewrite LF. right. left. reflexivity.
  - intros x bs W. apply (in_life E t tr _ (AR x bs)) in W. rewrite LF in W. destruct W as [W|W]; [discriminate W|].
    destruct FORM as [->|[->|(bs0 & a & b & f & SA & RQ & FB & FF)]]; [elim W|destruct W as [W|[]]; discriminate W|].
    assert (WA : In (OResult t x bs) a).
    { rewrite RQ in W. apply in_app_iff in W as [W|W]; [exact W|]. exfalso. apply in_app_iff in W as [W|W].
      - destruct FB as [->|(k' & ->)]; [elim W|]. eapply NBR; [reflexivity|exact W].
      - destruct (FF _ W) as [X|(X & _)]; discriminate X. }
    destruct (said_result _ _ _ _ _ _ _ _ SA WA) as (-> & r' & ops & KD' & HB & RE).
    rewrite KD in KD'. injection KD' as <-.
    destruct (build_ok (q_req E r) x ops) as (B1 & B2 & B3). rewrite <- HB in B1, B2.
    split; [exact B1|]. split; [intros b0 Hb0; apply (proj2 (B2 b0 Hb0))|]. split.
    + intros LEN a0 ref IA RA DR. assert (MM : many (q_req E r) = true) by (apply Nat.ltb_lt; exact LEN).
      specialize (RE MM). unfold response_error in RE. rewrite B3, <- HB in RE.
      apply (not_lacking bs0 (a_bcast a0)); [|exact DR].
      destruct (lacks E bs0 (a_bcast a0)) eqn:LK; [|reflexivity]. exfalso.
      assert (W' : existsb (fun a => (q_id E x =? a_resp a) && lacks E bs0 (a_bcast a)) (q_req E r) = true).
      { apply existsb_exists. exists a0. split; [exact IA|]. rewrite RA, N.eqb_refl, LK. reflexivity. }
      rewrite W' in RE. discriminate RE.
    + intros WD us y u U1 U2. apply (in_life E t tr _ AD) in WD. rewrite LF in WD. destruct WD as [WD|WD]; [discriminate WD|].
      rewrite RQ in WD. apply in_app_iff in WD as [WD|WD]; [elim (NDS _ _ SA WD)|].
      apply (in_life E t tr _ (AB u y)). rewrite LF. right. rewrite RQ. apply in_app_iff. right. apply in_app_iff. left.
      apply in_app_iff in WD as [WD|WD].
      * exfalso. destruct FB as [->|(k' & ->)]; [elim WD|]. exact (NDB _ _ WD).
      * destruct (FF _ WD) as [X|(_ & ->)]; [discriminate X|]. apply (FULL _ us); assumption.
Qed.

(** The broadcasts of an event: either the application is told that the event has
    failed, or every required broadcast is sent to everyone it is meant for. *)
Theorem C91_events : forall s e ops s' es,
  fire E s (LEvent e (Some ops) None) = Some (s', es) ->
  es = [OEventErr e] \/
  forall ref, In (ref, false) (q_event E e) -> exists us y, In (us, y) ops /\ q_id E y = ref /\
    forall u, In u us -> In (OBroad None u y) es.
Proof.
  intros s e ops s' es F. cbn [fire] in F. destruct (p_loop s); [discriminate F|].
  destruct (lacks E _ _) eqn:LK; [injection F as _ <-; auto|]. injection F as _ <-. right. intros ref IN.
  destruct (not_lacking _ _ _ LK IN) as ((us & y) & H1 & H2). exists us, y.
  assert (K : forall l acc, (forall b, In b l -> In b ops) -> (forall b, In b acc -> In b ops) ->
    forall b, In b (fold_left (add_output E (q_event E e)) l acc) -> In b ops).
  { induction l as [|op l IH]; intros acc L1 L2 b; cbn [fold_left]; [apply L2|].
    apply IH; [intros z Hz; apply L1; right; exact Hz|]. intros z Hz. unfold add_output in Hz.
    destruct (negb _); [apply L2; exact Hz|]. destruct (has_broadcast E acc _); [apply L2; exact Hz|].
    apply in_app_iff in Hz as [Hz|[<-|[]]]; [apply L2; exact Hz|apply L1; left; reflexivity]. }
  split; [apply (K ops []); auto; intros b []|]. split; [exact H2|].
  intros u Hu. apply in_app_iff. left. unfold broadcast_all. apply in_flat_map. exists (us, y). split; [exact H1|].
  apply in_map_iff. exists u. auto.
Qed.

(** ** C92: answers to requests and beacons *)

(** A handler that has come to its end has failed, or has answered and has done
    what was deferred to its end. *)
Theorem C92_ended_handlers_partial : forall ls s tr t o h m,
  qrun E ls s tr -> In (OStart t o h m) tr ->
  (forall j, p_task s t = Some j -> j_stage j = QDone) ->
  In (OFail t) tr \/ (answers t tr = 1%nat /\ In (ODeferred t) tr).
Proof.
  intros ls s tr t o h m R IN D.
  destruct (task_of _ _ _ _ _ R IN (Nat.eqb_refl t)) as (j & k & J & O & S).
  destruct (shape_form _ _ _ _ S) as (h0 & m0 & rest & _ & _ & LF & _ & _ & H).
  destruct (H (D j J)) as [W|(W1 & W2)].
  - left. apply (in_life E t tr (OFail t) (Nat.eqb_refl t)). rewrite LF. right. exact W.
  - right. rewrite answers_life in W1. split; [exact W1|].
    apply (in_life E t tr (ODeferred t) (Nat.eqb_refl t)). rewrite LF. right. exact W2.
Qed.

(** No handler waits for anything but the application and the transport. *)
Theorem C92_handlers_go_on : forall ls s tr t o h m,
  qrun E ls s tr -> In (OStart t o h m) tr -> p_loop s = None ->
  exists j, p_task s t = Some j /\
  match j_stage j with
  | QRun => forall r, fire E s (LEnd t r) <> None
  | QSent _ => forall ok k, fire E s (LSent t ok k) <> None
  | QLast => forall ok, fire E s (LLast t ok) <> None
  | QDone => True
  end.
Proof.
  intros ls s tr t o h m R IN L.
  destruct (task_of _ _ _ _ _ R IN (Nat.eqb_refl t)) as (j & k & J & O & _). exists j. split; [exact J|].
  destruct (j_stage j) eqn:ST; [intro r|intros ok k'|intro ok|exact I]; cbn [fire]; rewrite L, J, ST, O.
  - destruct r as [|x ops packs]; [discriminate|]. destruct (j_kind j) as [[|] r]; [|discriminate].
    destruct (many (q_req E r) && _); [discriminate|]. destruct packs; discriminate.
  - destruct (negb ok); [discriminate|]. destruct (broken E bs k'); discriminate.
  - destruct ok; discriminate.
Qed.

(** ** C93: discredited clients *)

(** No data of a client is looked at after the application has discredited it. *)
Theorem C93_discredited_partial : forall ls s tr p o d r q,
  qrun E ls s tr -> tr = p ++ OChunk o d r :: q -> ~ In (ODiscredit o) p.
Proof.
  intros ls s tr p o d r q R Q W.
  destruct (qrun_split E _ _ _ R _ _ _ Q) as (ls1 & s1 & tr1 & l & s2 & e1 & e2 & R1 & F & P & _).
  assert (IN : In (OChunk o d r) (e1 ++ OChunk o d r :: e2)) by apply in_elt.
  pose proof (qrun_flags E _ _ _ R1 o) as FL.
  cases F IN.
  - rewrite C in IN. destruct IN as [IN|IN]; [discriminate IN|]. destruct T; noway IN.
  - destruct e1 as [|x e1].
    + cbn [app] in C. injection C as -> _ _ _. rewrite app_nil_r in P. subst p. rewrite O1 in FL.
      apply (f_disc _ _ _ _ FL) in W. congruence.
    + cbn [app] in C. injection C as _ C.
      assert (IN' : In (OChunk o d r) (e1 ++ OChunk o d r :: e2)) by apply in_elt. rewrite C in IN'.
      destruct r1 as [[|n]|]; noway IN'.
Qed.

End Statements.

(** ** Concrete cases

    A message is its id and its body: 1 the self key, 2 the hashes (right if the
    body is "a"), 3 request 0 (two actions: response 10 with the required broadcast
    20, response 11), 4 request 1 (one action: response 12 with the required
    broadcast 21), 5 beacon 0; any other id is unknown to the workflow, and bodies
    that begin with ff cannot be decoded.  Event 0 has the required broadcast 22. *)
Definition demo_env (cs : ProducerModel.cstrategy) (is : ProducerModel.istrategy) : qenv :=
  mkQenv (N * bytes)
    (fun id body => match body with xff :: _ => Err EMissing | _ => Ok (id, body) end) 7
    (fun m => fst m =? 1)
    (fun m => if fst m =? 2 then Some (snd m, []) else None) [x61] []
    (fun m => if fst m =? 3 then Some (true, 0%nat) else if fst m =? 4 then Some (true, 1%nat)
              else if fst m =? 5 then Some (false, 0%nat) else None)
    (fun r => match r with
              | O => [mkAction 10 [(20, false)]; mkAction 11 []]
              | _ => [mkAction 12 [(21, false)]]
              end)
    (fun _ => [(22, false)])
    N (fun x => x) cs is.
Definition demo_msg (id n : N) (body : bytes) : bytes := pack id 7 n 0 body.
(** one piece of data holding [k] messages, and what the server does with it *)
Definition demo_data (u : N) (d : bytes) (k : nat) : list (qlabel N) :=
  LData u d 9 :: repeat LNext k.
Definition demo_greet (u : N) : list (qlabel N) :=
  LConnected u :: demo_data u (demo_msg 1 1 []) 2 ++ demo_data u (demo_msg 2 2 [x61]) 2.

Lemma demo cs is (P : qst (N * bytes) N -> list (qev (N * bytes) N) -> Prop) ls :
  match qexec (demo_env cs is) qinit ls [] with Some (s, tr) => P s tr | None => False end ->
  exists ls s tr, qrun (demo_env cs is) ls s tr /\ P s tr.
Proof.
  destruct (qexec (demo_env cs is) qinit ls []) as [[s tr]|] eqn:R; [|intros []].
  intro H. exists ls, s, tr. split; [|exact H].
  exact (qexec_qrun (demo_env cs is) ls [] qinit [] s tr (qrun_nil (demo_env cs is)) R).
Qed.

(** A client makes request 0 and beacon 0 in one piece of data and is served;
    another one is told about it. *)
Definition served : list (qlabel N) :=
  demo_greet 5 ++ demo_greet 6 ++
  demo_data 5 (demo_msg 3 3 [] ++ demo_msg 5 4 []) 3 ++
  [LEnd 0 (HAnswer 10 [([5; 6], 20)] true); LEnd 1 (HAnswer 0 [] true); LSent 0 true None; LSent 1 true None;
   LLast 1 true; LLast 0 true; LEvent 0 (Some [([6], 22)]) None; LDisconnected 5; LConnected 5].
Notation emit := ProducerModel.SEmit.
Notation cut := ProducerModel.SEmitDisc.

Ltac in_tac := cbn [In]; repeat first [left; reflexivity | right].

Example C85_handler_example : exists ls s tr, qrun (demo_env cut ProducerModel.IEmit) ls s tr /\
  exists p h q, tr = p ++ OStart 0 0 h (3, []) :: q.
Proof.
  apply (demo cut ProducerModel.IEmit _ served). vm_compute.
  eexists [_; _; _; _; _; _; _; _; _; _; _; _; _; _; _; _; _; _; _; _], _, _. reflexivity.
Qed.

(** The strategy says that clients that were not assigned are to be disconnected,
    and nobody was assigned; the request is served all the same. *)
Theorem C86_assigned_refuted : exists ls s tr,
  qrun (demo_env cut ProducerModel.IEmitDisc) ls s tr /\
  q_is (demo_env cut ProducerModel.IEmitDisc) = ProducerModel.IEmitDisc /\
  (forall o, ~ In (OAssign o) tr) /\ In (OSend (ByTask 0) 5 3 (PAnswer 10)) tr /\
  (forall u, ~ In (OAsk u) tr).
Proof.
  apply (demo cut ProducerModel.IEmitDisc _ served). vm_compute. split; [reflexivity|].
  split; [intros o H; repeat destruct H as [H|H]; try discriminate H; exact H|].
  split; [in_tac|intros u H; repeat destruct H as [H|H]; try discriminate H; exact H].
Qed.

Example C87_answers_example : exists ls s tr, qrun (demo_env cut ProducerModel.IEmit) ls s tr /\
  In (OSend ByLoop 5 1 (PSelf 5)) tr /\ In (OSend (ByTask 0) 5 3 (PAnswer 10)) tr /\
  In (OSend (ByTask 1) 5 4 PConfirm) tr.
Proof. apply (demo cut ProducerModel.IEmit _ served). vm_compute. split; [in_tac|]. split; in_tac. Qed.

(** Wrong hashes. *)
Example C88_asked_example : exists ls s tr, qrun (demo_env emit ProducerModel.IEmit) ls s tr /\ In (OAsk 5) tr.
Proof.
  apply (demo emit ProducerModel.IEmit _ (LConnected 5 :: demo_data 5 (demo_msg 2 1 [x62]) 2)). vm_compute. in_tac.
Qed.

Example C88_compliant_example : exists ls s tr, qrun (demo_env cut ProducerModel.IEmit) ls s tr /\
  reads (demo_env cut ProducerModel.IEmit) 0 tr <> [] /\
  forall o, In (OConnected 5 o) tr ->
     compliant (demo_env cut ProducerModel.IEmit) (reads (demo_env cut ProducerModel.IEmit) o tr) /\
     (forall d n, ~ In (OChunk o d (TReturned (S n))) tr) /\
     ~ In (ODiscredit o) tr /\
     (forall t h m, In (OStart t o h m) tr -> ~ In (OFail t) tr).
Proof.
  apply (demo cut ProducerModel.IEmit _ served). vm_compute. split; [discriminate|]. intros o H.
  split.
  { repeat destruct H as [H|H]; try discriminate H; try (elim H; fail); injection H; intros; subst; repeat (split; try reflexivity);
    repeat constructor; discriminate. }
  split; [intros d n W; repeat destruct W as [W|W]; try discriminate W; exact W|].
  split; [intro W; repeat destruct W as [W|W]; try discriminate W; exact W|].
  intros t h m _ W; repeat destruct W as [W|W]; try discriminate W; exact W.
Qed.

(** A client with wrong hashes is asked to leave, but the other messages of the
    same piece of data are handled: it is asked again, and with right hashes in
    that piece its request is served. *)
Theorem C88_turned_away_refuted : exists ls s tr, qrun (demo_env emit ProducerModel.IEmit) ls s tr /\
  exists p q1 q2 q3 h m, tr = p ++ OAsk 5 :: q1 ++ OAsk 5 :: q2 ++ OStart 0 0 h m :: q3 /\
    In (OSend (ByTask 0) 5 5 (PAnswer 11)) q3.
Proof.
  apply (demo emit ProducerModel.IEmit _ (LConnected 5 ::
    demo_data 5 (demo_msg 1 1 [] ++ demo_msg 2 2 [x62] ++ demo_msg 3 3 [] ++ demo_msg 2 4 [x61] ++ demo_msg 3 5 []) 6 ++
    [LEnd 0 (HAnswer 11 [] true)])). vm_compute.
  eexists [_; _; _; _; _; _; _], [_; _], [_; _; _; _; _], _, _, _. split; [reflexivity|in_tac].
Qed.

Definition pk (id n : N) (body : bytes) : packet := mkPacket id 7 n 0 body.

Example C89_reads_what_came_example : exists ls s tr, qrun (demo_env cut ProducerModel.IEmit) ls s tr /\
  p_loop s <> Some 0%nat /\
  concat (chunks (demo_env cut ProducerModel.IEmit) 0 tr) = stream [pk 1 1 []; pk 2 2 [x61]; pk 3 3 []; pk 5 4 []] /\
  length (reads (demo_env cut ProducerModel.IEmit) 0 tr) = 4%nat.
Proof.
  apply (demo cut ProducerModel.IEmit _ served). vm_compute. split; [discriminate|]. split; reflexivity.
Qed.

(** A request in one piece of data with an unknown message before it is not looked
    at until more data comes. *)
Theorem C89_reads_what_came_refuted : exists ls s tr, qrun (demo_env emit ProducerModel.IEmit) ls s tr /\
  p_loop s = None /\
  concat (chunks (demo_env emit ProducerModel.IEmit) 0 tr) = stream [pk 1 1 []; pk 2 2 [x61]; pk 9 3 []; pk 3 4 []] /\
  (forall p, In p [pk 1 1 []; pk 2 2 [x61]; pk 9 3 []; pk 3 4 []] ->
     exists m, q_get (demo_env emit ProducerModel.IEmit) (p_id p) (p_body p) = Ok m) /\
  forall h, ~ In (ORead 0 h (3, [])) tr.
Proof.
  apply (demo emit ProducerModel.IEmit _ (demo_greet 5 ++ demo_data 5 (demo_msg 9 3 [] ++ demo_msg 3 4 []) 1)). vm_compute.
  split; [reflexivity|]. split; [reflexivity|]. split.
  - intros p H. repeat destruct H as [H|H]; try (elim H); subst p; eexists; reflexivity.
  - intros h H. repeat destruct H as [H|H]; try discriminate H; exact H.
Qed.

Example C90_paired_example : exists ls s tr, qrun (demo_env cut ProducerModel.IEmit) ls s tr /\
  In (ODisconnected 5 0) tr /\ In (OConnected 5 2) tr.
Proof. apply (demo cut ProducerModel.IEmit _ served). vm_compute. split; in_tac. Qed.

Example C91_broadcasts_example : exists ls s tr, qrun (demo_env cut ProducerModel.IEmit) ls s tr /\
  In (OResult 0 10 [([5; 6], 20)]) tr /\ In (ODeferred 0) tr /\ In (OBroad (Some 0%nat) 6 20) tr /\
  In (OBroad None 6 22) tr.
Proof. apply (demo cut ProducerModel.IEmit _ served). vm_compute. split; [in_tac|]. split; [in_tac|]. split; in_tac. Qed.

(** Request 1 has a single action, which requires broadcast 21; the answer goes out
    and everything is done, but there was no way to give the broadcast. *)
Theorem C91_single_action_refuted : exists ls s tr, qrun (demo_env emit ProducerModel.IEmit) ls s tr /\
  q_req (demo_env emit ProducerModel.IEmit) 1 = [mkAction 12 [(21, false)]] /\
  In (OSend (ByTask 0) 5 3 (PAnswer 12)) tr /\ In (ODeferred 0) tr /\
  forall u, ~ In (OBroad (Some 0%nat) u 21) tr.
Proof.
  apply (demo emit ProducerModel.IEmit _ (demo_greet 5 ++ demo_data 5 (demo_msg 4 3 []) 2 ++
    [LEnd 0 (HAnswer 12 [([5], 21)] true); LSent 0 true None; LLast 0 true])). vm_compute.
  split; [reflexivity|]. split; [in_tac|]. split; [in_tac|].
  intros u H. repeat destruct H as [H|H]; try discriminate H; exact H.
Qed.

Example C92_ended_handlers_example : exists ls s tr, qrun (demo_env cut ProducerModel.IEmit) ls s tr /\
  (exists h, In (OStart 0 0 h (3, [])) tr) /\ (forall j, p_task s 0 = Some j -> j_stage j = QDone).
Proof.
  apply (demo cut ProducerModel.IEmit _ served). vm_compute. split; [eexists; in_tac|].
  intros j H. injection H as <-. reflexivity.
Qed.

(** The function of the application is rejected: the handler has ended, everything
    is at rest, and no answer was or will be sent. *)
Theorem C92_answered_refuted : exists ls s tr, qrun (demo_env emit ProducerModel.IEmit) ls s tr /\
  (exists h, In (OStart 0 0 h (3, [])) tr) /\
  (forall t j, p_task s t = Some j -> j_stage j = QDone) /\ p_loop s = None /\
  answers (demo_env emit ProducerModel.IEmit) 0 tr = 0%nat.
Proof.
  apply (demo emit ProducerModel.IEmit _ (demo_greet 5 ++ demo_data 5 (demo_msg 3 3 []) 2 ++ [LEnd 0 HReject])).
  vm_compute. split; [eexists; in_tac|]. split; [|split; reflexivity].
  intros t j H. destruct t; [injection H as <-; reflexivity|discriminate H].
Qed.

(** The application discredits a client while the first message of a piece of data
    is handled: the second one is handled too. *)
Theorem C93_discredited_refuted : exists ls s tr, qrun (demo_env cut ProducerModel.IEmit) ls s tr /\
  exists p q h m, tr = p ++ ODiscredit 0 :: q /\ In (OStart 1 0 h m) q.
Proof.
  apply (demo cut ProducerModel.IEmit _ (demo_greet 5 ++ LData 5 (demo_msg 3 3 [] ++ demo_msg 3 4 []) 9 ::
    [LNext; LDiscredit 0; LNext])). vm_compute.
  eexists [_; _; _; _; _; _; _; _; _; _; _; _], _, _, _. split; [reflexivity|]. in_tac.
Qed.

Example C93_discredited_example : exists ls s tr, qrun (demo_env cut ProducerModel.IEmit) ls s tr /\
  exists p q, tr = p ++ ODiscredit 0 :: q /\ In (OAsk 5) q /\ In (OErr QData (Some 0%nat)) q.
Proof.
  apply (demo cut ProducerModel.IEmit _ (demo_greet 5 ++ [LDiscredit 0; LData 5 (demo_msg 3 3 []) 9])). vm_compute.
  eexists [_; _; _; _; _; _; _; _; _], _. split; [reflexivity|]. split; in_tac.
Qed.

Print Assumptions C85_handler_after_handshake.
Print Assumptions C86_strategy_has_no_effect.
Print Assumptions C87_own_number.
Print Assumptions C87_answered_once.
Print Assumptions C88_asked_for_cause.
Print Assumptions C88_compliant_client_stays.
Print Assumptions C89_reads_what_came_partial.
Print Assumptions C90_paired.
Print Assumptions C91_broadcasts_partial.
Print Assumptions C91_events.
Print Assumptions C92_ended_handlers_partial.
Print Assumptions C92_handlers_go_on.
Print Assumptions C93_discredited_partial.
Print Assumptions C86_assigned_refuted.
Print Assumptions C88_turned_away_refuted.
Print Assumptions C89_reads_what_came_refuted.
Print Assumptions C91_single_action_refuted.
Print Assumptions C92_answered_refuted.
Print Assumptions C93_discredited_refuted.
