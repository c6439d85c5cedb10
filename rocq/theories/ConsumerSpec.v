(** Executions of a consumer, and what a reader of one can say about it. *)
From Coq Require Import List NArith Bool Lia Arith.
From Verif Require Import Bytes WireModel FrameModel.
From Verif Require Import ConsumerModel ConsumerProofs ConsumerInv ConsumerTrace ConsumerTrace2 ConsumerGood.
Import ListNotations.

Section Spec.
Variable E : cenv.
Notation out := (out E).

(** [t] is what happens in some execution: tasks scheduled in any order, anything
    delivered by the transport, anything done by the application. *)
Definition exec (t : list out) : Prop := exists ls s, runs E ls (start E) = Some (s, t).

(** render_consumer.rs l.117-170 [connect]: one [listen] after another.  A further
    one is started only with [ReconnectionStrategy::Reconnect], after one that ended
    without error and without a [shutdown] (and if the reconnect handler agrees,
    which is left open: the list may stop anywhere). *)
Inductive lives (reconnect : bool) : list (list out) -> Prop :=
| live_last t : exec t -> lives reconnect [t]
| live_again t ts : exec t -> In (XOver E false None) t -> reconnect = true -> lives reconnect ts -> lives reconnect (t :: ts).

(** A request sent by [a] under number [n] has not been answered. *)
Definition outstanding (a : nat) (n : N) (t : list out) : Prop :=
  exists l1 l2 p, t = l1 ++ XSend E a n p true :: l2 /\ forall b m, ~ In (XMatch E b n m) l2.

(** [(h, m)] is the last message taken from the buffer, and it has neither been
    handed to a request nor given to the application. *)
Definition in_hand (h : header) (m : x_msg E) (t : list out) : Prop :=
  exists l1 l2, t = l1 ++ XIn E h m :: l2 /\ x_confirm E m = false
    /\ (forall h' m', ~ In (XIn E h' m') l2) /\ (forall a n m', ~ In (XMatch E a n m') l2)
    /\ (forall b m', ~ In (XEmit E (EBroadcast E b m')) l2)
    /\ ~ In (XEmit E (EError E XUnknown)) l2.

Section Run.
Variable t : list out.
Hypothesis X : exec t.

Lemma at_match t1 a n m t2 : t = t1 ++ XMatch E a n m :: t2 ->
  (exists h, cur E t1 = Some (h, m) /\ h_seq h = n) /\ owner E n t1 = Some a
  /\ (forall m', ~ In (XMatch E a n m') t1) /\ (forall o, In o t1 -> ~ ended E a o).
Proof.
  destruct X as (ls&s&R). intros Q. remember (XMatch E a n m) as z eqn:Z. revert a n m Z. revert t1 z t2 Q.
  refine (runs_good E _ _ ls s t R). intros; subst; eapply good_match; eauto.
Qed.
Lemma at_send t1 a n p ok t2 : t = t1 ++ XSend E a n p ok :: t2 ->
  paid E a n p t1 /\ owner E n t1 = None /\ unsent E a n t1 /\ (forall r, ~ In (XApiEnd E r) t1).
Proof.
  destruct X as (ls&s&R). intros Q. remember (XSend E a n p ok) as z eqn:Z. revert a n p ok Z. revert t1 z t2 Q.
  refine (runs_good E _ _ ls s t R). intros; subst; eapply good_send; eauto.
Qed.
Lemma at_ret t1 a r t2 : t = t1 ++ XRet E a r :: t2 ->
  (exists k, In (XCall E a k) t1 /\ ret_ok E a k r t1) /\ forall o, In o t1 -> ~ ended E a o.
Proof.
  destruct X as (ls&s&R). intros Q. remember (XRet E a r) as z eqn:Z. revert a r Z. revert t1 z t2 Q.
  refine (runs_good E _ _ ls s t R). intros; subst; eapply good_ret; eauto.
Qed.
Lemma at_auth t1 a r t2 : t = t1 ++ XAuthEnd E a r :: t2 ->
  In (XSpawn E a) t1 /\ (forall o, In o t1 -> ~ ended E a o) /\
  match r with
  | inl u => exists m0 m1, In (XMatch E a 0 m0) t1 /\ x_self E m0 = Some u
             /\ In (XMatch E a 1 m1) t1 /\ x_hash E m1 = Some None
  | inr _ => True
  end.
Proof.
  destruct X as (ls&s&R). intros Q. remember (XAuthEnd E a r) as z eqn:Z. revert a r Z. revert t1 z t2 Q.
  refine (runs_good E _ _ ls s t R). intros; subst; eapply good_auth; eauto.
Qed.
Lemma at_number t1 a n t2 : t = t1 ++ XSeqNo E a n :: t2 ->
  n = number (allocs E t1 + 1) /\ (exists k, is_call E k /\ In (XCall E a k) t1)
  /\ (forall o, In o t1 -> ~ ended E a o) /\ unsent E a n t1 /\ forall n', ~ In (XSeqNo E a n') t1.
Proof.
  destruct X as (ls&s&R). intros Q. remember (XSeqNo E a n) as z eqn:Z. revert a n Z. revert t1 z t2 Q.
  refine (runs_good E _ _ ls s t R). intros; subst; eapply good_number; eauto.
Qed.
Lemma at_in t1 h m t2 : t = t1 ++ XIn E h m :: t2 -> cur E t1 = None /\ (forall r, ~ In (XMsgEnd E r) t1).
Proof.
  destruct X as (ls&s&R). intros Q. remember (XIn E h m) as z eqn:Z. revert h m Z. revert t1 z t2 Q.
  refine (runs_good E _ _ ls s t R). intros; subst; eapply good_in; eauto.
Qed.
Lemma at_fresh t1 o t2 : t = t1 ++ o :: t2 ->
  match o with
  | XCall _ a k => user_kind E k = true /\ forall z, In z t1 -> ~ about E a z
  | XSpawn _ a => (exists t0 h m, t1 = t0 ++ [XIn E h m] /\ x_confirm E m = true) /\ forall z, In z t1 -> ~ about E a z
  | XDrop _ a => forall z, In z t1 -> ~ ended E a z
  | _ => True
  end.
Proof. destruct X as (ls&s&R). intros Q. revert t1 o t2 Q. refine (runs_good E _ _ ls s t R). intros. eapply good_fresh; eauto. Qed.
Lemma at_over t1 b r t2 : t = t1 ++ XOver E b r :: t2 ->
  (forall b' r', ~ In (XOver E b' r') t1) /\
  (b = true -> exists a, In (XCall E a (KShutdown E)) t1) /\
  (emitted E t1 = handled E t1
   /\ (exists e, In (XEmit E (EShutdown E e)) t1) \/ b = false /\ r = Some XPanic).
Proof.
  destruct X as (ls&s&R). intros Q. remember (XOver E b r) as z eqn:Z. revert b r Z. revert t1 z t2 Q.
  refine (runs_good E _ _ ls s t R). intros; subst; eapply good_over; eauto.
Qed.
Lemma at_event t1 e t2 : t = t1 ++ XEvent E e :: t2 -> exists rest, emitted E t1 = handled E t1 ++ e :: rest.
Proof.
  destruct X as (ls&s&R). intros Q. remember (XEvent E e) as z eqn:Z. revert e Z. revert t1 z t2 Q.
  refine (runs_good E _ _ ls s t R). intros; subst; eapply good_event; eauto.
Qed.
Lemma at_quiet t1 o t2 : t = t1 ++ o :: t2 -> (exists b r, In (XOver E b r) t1) ->
  match o with XCall _ _ _ | XRet _ _ _ | XAuthEnd _ _ _ | XDrop _ _ | XCancel _ => True | _ => False end.
Proof. destruct X as (ls&s&R). intros Q. revert t1 o t2 Q. refine (runs_good E _ _ ls s t R). intros. eapply good_quiet; eauto. Qed.
Lemma at_emit t1 e t2 : t = t1 ++ XEmit E e :: t2 ->
  (forall r, ~ In (XEmit E (EShutdown E r)) t1) /\
  match e with
  | EBroadcast _ b m => x_broadcast E m = Some b /\ exists h, cur E t1 = Some (h, m)
  | EError _ XUnknown => forall h m, cur E t1 = Some (h, m) -> x_broadcast E m = None
  | EConnected _ => (conns E t1 < shakes E t1)%nat /\
      exists a u v, In (XAuthEnd E a (inl u)) t1 /\ x_uuid E u = Some v
  | EShutdown _ _ => (exists r, In (XApiEnd E r) t1) /\ (exists r, In (XMsgEnd E r) t1)
  | _ => True
  end.
Proof.
  destruct X as (ls&s&R). intros Q. remember (XEmit E e) as z eqn:Z. revert e Z. revert t1 z t2 Q.
  refine (runs_good E _ _ ls s t R). intros; subst; eapply good_emit; eauto.
Qed.
Lemma at_apiend t1 r t2 : t = t1 ++ XApiEnd E r :: t2 ->
  (forall r', ~ In (XApiEnd E r') t1) /\
  match r with
  | Some XApiChannel => stale E t1 \/ (exists a, In (XDrop E a) t1) \/ (exists r', In (XMsgEnd E r') t1)
      \/ exists a, In (XCall E a (KShutdown E)) t1
  | Some XClientChannel => exists a n p t0, t1 = t0 ++ [XSend E a n p false]
  | Some (XSequence n) => exists a b p, owner E n t1 = Some a /\ paid E b n p t1 /\ unsent E b n t1
  | Some _ => False
  | None => True
  end.
Proof.
  destruct X as (ls&s&R). intros Q. remember (XApiEnd E r) as z eqn:Z. revert r Z. revert t1 z t2 Q.
  refine (runs_good E _ _ ls s t R). intros; subst; eapply good_apiend; eauto.
Qed.
Lemma at_msgend t1 r t2 : t = t1 ++ XMsgEnd E r :: t2 ->
  (forall r', ~ In (XMsgEnd E r') t1) /\ cur E t1 = None /\
  match r with
  | Some XUuid => (exists a u, In (XAuthEnd E a (inl u)) t1 /\ x_uuid E u = None) \/ exists a, In (XAuthEnd E a (inr XUuid)) t1
  | Some XApiChannel => (exists a, In (XDrop E a) t1) \/ exists a, In (XAuthEnd E a (inr XApiChannel)) t1
  | Some e => exists a, In (XAuthEnd E a (inr e)) t1
  | None => True
  end.
Proof.
  destruct X as (ls&s&R). intros Q. remember (XMsgEnd E r) as z eqn:Z. revert r Z. revert t1 z t2 Q.
  refine (runs_good E _ _ ls s t R). intros; subst; eapply good_msgend; eauto.
Qed.

Lemma at_confirm t1 o t2 : t = t1 ++ o :: t2 ->
  forall t0 h m, t1 = t0 ++ [XIn E h m] -> x_confirm E m = true -> exists a, o = XSpawn E a.
Proof. destruct X as (ls&s&R). intros Q. revert t1 o t2 Q. refine (runs_good E _ _ ls s t R). intros. eapply good_confirm; eauto. Qed.

(** * The owner of a number *)
Lemma owner_sound n t1 : forall a, owner E n t1 = Some a -> outstanding a n t1.
Proof.
  induction t1 as [|o t1 IH] using rev_ind; cbn; [discriminate|]. intros a.
  unfold owner. rewrite fold_left_app. cbn [fold_left]. fold (owner E n t1).
  assert (K : owner E n t1 = Some a -> (forall b m, o <> XMatch E b n m) -> outstanding a n (t1 ++ [o])).
  { intros O NM. destruct (IH a O) as (l1&l2&p&->&NX). exists l1, (l2 ++ [o]), p. split; [rewrite <- app_assoc; reflexivity|].
    intros b m J. apply in_app_iff in J. destruct J as [J|[J|[]]]; [eapply NX; eauto|eapply NM; eauto]. }
  destruct o; cbn [own]; try (intros O; apply K; [exact O|discriminate]).
  - destruct ok; [|intros O; apply K; [exact O|discriminate]].
    destruct (N.eqb n n0) eqn:Q; [|intros O; apply K; [exact O|discriminate]].
    apply N.eqb_eq in Q. subst n0. intros [= <-]. exists t1, [], p. split; [reflexivity|]. intros b m [].
  - destruct (N.eqb n n0) eqn:Q; [discriminate|]. intros O. apply K; [exact O|].
    intros b m0 [= _ -> _]. rewrite N.eqb_refl in Q. discriminate.
Qed.

Lemma owner_complete t1 t2 a n : t = t1 ++ t2 -> outstanding a n t1 -> owner E n t1 = Some a.
Proof.
  intros Q (l1&l2&p&->&NX). revert t2 Q. induction l2 as [|o l2 IH] using rev_ind; intros t2 Q.
  - unfold owner. rewrite fold_left_app. cbn. rewrite N.eqb_refl. reflexivity.
  - rewrite app_comm_cons, app_assoc. unfold owner. rewrite fold_left_app. fold (owner E n (l1 ++ XSend E a n p true :: l2)).
    assert (Q' : t = (l1 ++ XSend E a n p true :: l2) ++ o :: t2).
    { rewrite Q. repeat (rewrite <- ?app_assoc; cbn [app]). reflexivity. }
    assert (O : owner E n (l1 ++ XSend E a n p true :: l2) = Some a).
    { eapply IH; [|exact Q']. intros b m J. eapply NX. apply in_app_iff. eauto. }
    cbn [fold_left]. rewrite O. destruct o; cbn [own]; auto.
    + destruct ok; auto. destruct (N.eqb n n0) eqn:W; auto. apply N.eqb_eq in W. subst n0.
      destruct (at_send _ _ _ _ _ _ Q') as (_&N&_). congruence.
    + destruct (N.eqb n n0) eqn:W; auto. apply N.eqb_eq in W. subst n0.
      exfalso. eapply NX. apply in_app_iff. right. left. reflexivity.
Qed.

(** * The message in hand *)
Lemma cur_keep h m l1 l2 : cur E l1 = Some (h, m) ->
  (forall h' m', ~ In (XIn E h' m') l2) -> (forall a n m', ~ In (XMatch E a n m') l2) ->
  (forall b m', ~ In (XEmit E (EBroadcast E b m')) l2) -> ~ In (XEmit E (EError E XUnknown)) l2 ->
  cur E (l1 ++ l2) = Some (h, m).
Proof.
  intros C N1 N2 N3 N4. unfold cur in *. rewrite fold_left_app, C. clear C.
  induction l2 as [|o l2 IH]; [reflexivity|]. cbn [fold_left].
  replace (cur1 E (Some (h, m)) o) with (Some (h, m)); [apply IH|].
  all: try (intros; intros J; first [eapply N1; right; exact J|eapply N2; right; exact J|eapply N3; right; exact J|eapply N4; right; exact J]).
  destruct o; cbn; auto.
  - exfalso. eapply N1. left. reflexivity.
  - exfalso. eapply N2. left. reflexivity.
  - destruct e; auto; [destruct e; auto; elim N4; left; reflexivity|exfalso; eapply N3; left; reflexivity].
Qed.

Lemma cur_sound t1 : forall t2 h m, t = t1 ++ t2 -> cur E t1 = Some (h, m) -> in_hand h m t1.
Proof.
  induction t1 as [|o t1 IH] using rev_ind; intros t2 h m Q C; [discriminate|].
  assert (Q' : t = t1 ++ o :: t2) by (rewrite Q, <- app_assoc; reflexivity).
  unfold cur in C. rewrite fold_left_app in C. fold (cur E t1) in C. cbn [fold_left] in C.
  assert (K : cur E t1 = Some (h, m) -> (forall h' m', o <> XIn E h' m') -> (forall a n m', o <> XMatch E a n m') ->
    (forall b m', o <> XEmit E (EBroadcast E b m')) -> o <> XEmit E (EError E XUnknown) -> in_hand h m (t1 ++ [o])).
  { intros O A1 A2 A3 A4. destruct (IH _ h m Q' O) as (l1&l2&->&B0&B1&B2&B3&B4). exists l1, (l2 ++ [o]).
    split; [rewrite <- app_assoc; reflexivity|]. split; [exact B0|]. repeat split; intros; intros J; apply in_app_iff in J.
    all: destruct J as [J|[J|[]]].
    all: try (eapply B1; eassumption). all: try (eapply B2; eassumption). all: try (eapply B3; eassumption). all: try (eapply B4; eassumption).
    all: try (eapply A1; eassumption). all: try (eapply A2; eassumption). all: try (eapply A3; eassumption). all: try (eapply A4; eassumption). }
  assert (D : (exists h' m', o = XIn E h' m') \/ (forall h' m', o <> XIn E h' m'))
    by (destruct o; try (right; discriminate); left; eauto).
  destruct D as [(h'&m'&->)|NI].
  - destruct (at_in _ _ _ _ Q') as [CN _]. rewrite CN in C. cbn in C. destruct (x_confirm E m') eqn:CF; [discriminate|].
    injection C as <- <-. exists t1, []. repeat split; auto.
  - destruct o; cbn in C; try (apply K; [exact C|intros; discriminate..|discriminate]); try discriminate.
    + exfalso. eapply NI. reflexivity.
    + destruct e; try discriminate C; try (apply K; [exact C|intros; discriminate..|discriminate]).
      destruct e; try discriminate C; (apply K; [exact C|intros; discriminate..|discriminate]).
Qed.

Lemma cur_complete t1 t2 h m : t = t1 ++ t2 -> in_hand h m t1 -> cur E t1 = Some (h, m).
Proof.
  intros Q (l1&l2&->&B0&B1&B2&B3&B4).
  replace (l1 ++ XIn E h m :: l2) with ((l1 ++ [XIn E h m]) ++ l2) by (rewrite <- app_assoc; reflexivity).
  apply cur_keep; auto. unfold cur. rewrite fold_left_app. cbn. rewrite B0. reflexivity.
Qed.

End Run.

(** One run after another. *)
Lemma runs_app l1 : forall l2 s s1 t1, runs E l1 s = Some (s1, t1) ->
  runs E (l1 ++ l2) s = match runs E l2 s1 with Some (s2, t2) => Some (s2, t1 ++ t2) | None => None end.
Proof.
  induction l1 as [|l l1 IH]; intros l2 s s1 t1 R; cbn in *.
  - injection R as <- <-. destruct (runs E l2 s) as [[s2 t2]|]; reflexivity.
  - destruct (fire E l s) as [[s2 t2]|]; [|discriminate]. destruct (runs E l1 s2) as [[s3 t3]|] eqn:R1; [|discriminate].
    injection R as <- <-. rewrite (IH l2 s2 s3 t3 R1). destruct (runs E l2 s3) as [[s4 t4]|]; [|reflexivity]. rewrite app_assoc. reflexivity.
Qed.

Lemma in_split3 {A} (x : A) l : In x l -> exists l1 l2, l = l1 ++ x :: l2.
Proof. apply in_split. Qed.

(** A prefix of an execution need not be one (a step may do several things), but
    what is said about it follows. *)
Lemma split_in_prefix {A} (t t1 t2 u1 u2 : list A) o : t = t1 ++ t2 -> t1 = u1 ++ o :: u2 -> t = u1 ++ o :: (u2 ++ t2).
Proof. intros -> ->. rewrite <- app_assoc. reflexivity. Qed.

End Spec.
