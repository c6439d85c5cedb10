(** Structural invariants of the consumer's transition system. *)
From Coq Require Import List NArith Bool Lia Arith.
From Verif Require Import Bytes WireModel FrameModel.
From Verif Require Import ConsumerModel.
Import ListNotations.

Ltac fire_cases H :=
  unfold fire, run_act, ask, request, fails, api_cmd, client_event, next_msg, auth_msg,
    not_accepted, dispatch, return_, end_auth, end_api, end_msg, emit, crash in H;
  cbv beta iota zeta in H;
  repeat (match type of H with
   | context [match ?x with _ => _ end] =>
     lazymatch x with
     | context [match _ with _ => _ end] => fail
     | _ => destruct x eqn:?; cbv beta iota zeta in H; try discriminate H
     end
   end);
  try discriminate H; injection H as <- <-.

Section Proofs.
Variable E : cenv.
Notation st := (st E).
Notation out := (out E).

(** * Activities *)
Lemma act_put_same a x l : act E a l <> None -> act E a (put_act E a x l) = Some x.
Proof.
  induction l as [|[b y] l IH]; cbn; [congruence|].
  destruct (Nat.eqb a b) eqn:Q; cbn; rewrite Q; auto.
Qed.
Lemma act_put_other a b x l : a <> b -> act E b (put_act E a x l) = act E b l.
Proof.
  intros D. induction l as [|[c y] l IH]; cbn; [reflexivity|].
  destruct (Nat.eqb a c) eqn:Q; cbn.
  - apply Nat.eqb_eq in Q. subst. apply Nat.eqb_neq in D. rewrite Nat.eqb_sym in D. rewrite D. reflexivity.
  - destruct (Nat.eqb b c); auto.
Qed.
Lemma act_put_any a b x l : act E b (put_act E a x l) =
  if Nat.eqb a b then match act E b l with Some _ => Some x | None => None end else act E b l.
Proof.
  destruct (Nat.eqb a b) eqn:Q.
  - apply Nat.eqb_eq in Q. subst. destruct (act E b l) eqn:A.
    + apply act_put_same. congruence.
    + induction l as [|[c y] l IH]; cbn in *; [reflexivity|].
      destruct (Nat.eqb b c) eqn:R; [discriminate|]. cbn. rewrite R. auto.
  - apply Nat.eqb_neq in Q. apply act_put_other; auto.
Qed.
Lemma act_del_other a b l : a <> b -> act E b (del_act E a l) = act E b l.
Proof.
  intros D. induction l as [|[c y] l IH]; cbn; [reflexivity|].
  destruct (Nat.eqb a c) eqn:Q; cbn.
  - apply Nat.eqb_eq in Q. subst. apply Nat.eqb_neq in D. rewrite Nat.eqb_sym in D. rewrite D. reflexivity.
  - destruct (Nat.eqb b c); auto.
Qed.
Lemma act_in a l x : act E a l = Some x -> In a (map fst l).
Proof.
  induction l as [|[b y] l IH]; cbn; [discriminate|].
  destruct (Nat.eqb a b) eqn:Q; [apply Nat.eqb_eq in Q; auto|auto].
Qed.
Lemma not_in_act a l : ~ In a (map fst l) -> act E a l = None.
Proof. destruct (act E a l) eqn:Q; [intros N; elim N; eapply act_in; eauto|auto]. Qed.
Lemma act_del_same a l : NoDup (map fst l) -> act E a (del_act E a l) = None.
Proof.
  induction l as [|[c y] l IH]; cbn; [reflexivity|]. intros N. inversion N; subst.
  destruct (Nat.eqb a c) eqn:Q.
  - apply Nat.eqb_eq in Q. subst. apply not_in_act. assumption.
  - cbn. rewrite Q. auto.
Qed.
Lemma put_fst a x l : map fst (put_act E a x l) = map fst l.
Proof. induction l as [|[c y] l IH]; cbn; [reflexivity|]. destruct (Nat.eqb a c); cbn; congruence. Qed.
Lemma del_incl a l b : In b (map fst (del_act E a l)) -> In b (map fst l).
Proof.
  induction l as [|[c y] l IH]; cbn; [auto|]. destruct (Nat.eqb a c); cbn; [auto|]. intros [Q|Q]; auto.
Qed.
Lemma del_nodup a l : NoDup (map fst l) -> NoDup (map fst (del_act E a l)).
Proof.
  induction l as [|[c y] l IH]; cbn; [auto|]. intros N. inversion N; subst.
  destruct (Nat.eqb a c); cbn; [assumption|]. constructor; auto.
  intros Q. apply del_incl in Q. auto.
Qed.
Lemma act_del_any a b l : NoDup (map fst l) -> act E b (del_act E a l) =
  if Nat.eqb a b then None else act E b l.
Proof.
  intros N. destruct (Nat.eqb a b) eqn:Q.
  - apply Nat.eqb_eq in Q. subst. apply act_del_same. assumption.
  - apply Nat.eqb_neq in Q. apply act_del_other. auto.
Qed.


(** * Elementary transitions *)
Definition waiting (sg : stage E) : bool :=
  match sg with WSeq _ | WUuid _ _ | WResp _ _ | WStop _ => true | _ => false end.

(** a request leaves activity [k], [sg] as [k'] with number [n] and payload [p] *)
Inductive reqs : kind E -> stage E -> kind E -> N -> payload E -> Prop :=
| R_self : reqs (KAuth0 E) (Init E) (KAuth0 E) 0 (PSelf E)
| R_req r x n u : reqs (KReq E r x) (GUuid E n u) (KReq E r x) n (PUser E x u)
| R_beacon b x n u : reqs (KBeacon E b x) (GUuid E n u) (KBeacon E b x) n (PUser E x u)
| R_hash n m t : x_self E m = Some t -> reqs (KAuth0 E) (GResp E n m) (KAuth1 E t) 1 (PHash E).

(** a call returns *)
Inductive rets (s : st) (a : nat) : kind E -> stage E -> cres E -> Prop :=
| R_closed k sg e : waiting sg = true -> has_sender E a s = false -> e = XGetting \/ e = XApiChannel ->
  rets s a k sg (RErr E e)
| R_down k sg : waiting sg = false -> api_up E s = false -> rets s a k sg (RErr E XApiChannel)
| R_pack k n u : rets s a k (GUuid E n u) (RErr E XProtocol)
| R_unexpected k n m :
  match k with KReq _ r _ => x_answer E r m = None | KBeacon _ _ _ => x_beacon E m = None | _ => True end ->
  rets s a k (GResp E n m) (RErr E XUnexpected)
| R_refused b x n m t : x_beacon E m = Some (Some t) -> rets s a (KBeacon E b x) (GResp E n m) (RErr E (XBroadcast t))
| R_odd k : k <> KShutdown E -> rets s a k (GStop E) (RErr E XUnexpected)
| R_timeout_w r x n : rets s a (KReq E r x) (WResp E n) (RErr E XTimeout)
| R_timeout_g r x n m : rets s a (KReq E r x) (GResp E n m) (RErr E XTimeout)
| R_ok r x n m i : x_answer E r m = Some i -> rets s a (KReq E r x) (GResp E n m) (ROk E i m)
| R_confirmed b x n m : x_beacon E m = Some None -> rets s a (KBeacon E b x) (GResp E n m) (RDone E)
| R_stopped : rets s a (KShutdown E) (GStop E) (RDone E).

Inductive auths (s : st) (a : nat) : kind E -> stage E -> bytes + cerr -> Prop :=
| A_ok t n m : x_hash E m = Some None -> auths s a (KAuth1 E t) (GResp E n m) (inl t)
| A_err k sg e : (waiting sg = true -> has_sender E a s = false) -> auths s a k sg (inr e).

(** why [client_api_task] returns *)
Inductive ends (s : st) : option cerr -> N -> Prop :=
| D_cancel : s_cancel E s = true -> ends s None (s_seq E s)
| D_sequence n p a q b : s_q E s = QRequest E n p a :: q -> pfind n (s_pend E s) = Some b ->
  ends s (Some (XSequence n)) (s_seq E s)
| D_late n m q a : s_q E s = QAccept E n m :: q -> pfind n (s_pend E s) = Some a ->
  (forall k n', act E a (s_acts E s) <> Some (k, WResp E n')) -> ends s (Some XApiChannel) (s_seq E s)
| D_answer n m q : s_q E s = QAccept E n m :: q -> (forall h m', s_msg E s <> MWait E h m' None) ->
  ends s (Some XApiChannel) (s_seq E s)
| D_uuid a q : s_q E s = QUuid E a :: q -> msg_up E s = false -> ends s (Some XApiChannel) (s_seq E s)
| D_seq a q n : s_q E s = QSeq E a :: q -> (forall k, act E a (s_acts E s) <> Some (k, WSeq E)) ->
  ends s (Some XApiChannel) n
| D_shut a q : s_q E s = QShutdown E a :: q -> s_shut E s <> ShWait -> ends s (Some XApiChannel) (s_seq E s).

(** why [client_messages_task] returns *)
Inductive mends (s : st) : option cerr -> Prop :=
| N_none : mends s None
| N_uuid t q : s_qauth E s = ASet (inl t) :: q -> x_uuid E t = None -> mends s (Some XUuid)
| N_auth e q : s_qauth E s = ASet (inr e) :: q -> mends s (Some e)
| N_tell a q : s_qauth E s = AGet a :: q -> (forall k n, act E a (s_acts E s) <> Some (k, WUuid E n)) ->
  mends s (Some XApiChannel).

Definition set_q q (s : st) : st := set_api E (s_api E s) (s_pend E s) (s_seq E s) q (s_cancel E s) s.
Definition set_pend p (s : st) : st := set_api E (s_api E s) p (s_seq E s) (s_q E s) (s_cancel E s) s.
Definition to_emit e (s : st) : st := set_emit E (s_emit E s ++ [e]) s.

Inductive eff (s : st) : list out -> st -> Prop :=
| F_call k : user_kind E k = true -> eff s [XCall E (s_next E s) k] (add_act E k s)
| F_drop a k sg : act E a (s_acts E s) = Some (k, sg) -> user_kind E k = true ->
  eff s [XDrop E a] (gone E a s)
| F_cancel : eff s [XCancel E] (set_cli E (s_cli E s) true s)
| F_seq a k : act E a (s_acts E s) = Some (k, Init E) -> api_up E s = true ->
  (exists r x, k = KReq E r x \/ k = KBeacon E r x) ->
  eff s [] (push_q E (QSeq E a) (go E a k (WSeq E) s))
| F_stop a : act E a (s_acts E s) = Some (KShutdown E, Init E) -> api_up E s = true ->
  eff s [] (push_q E (QShutdown E a) (go E a (KShutdown E) (WStop E) s))
| F_uuid a k n : act E a (s_acts E s) = Some (k, GSeq E n) -> api_up E s = true ->
  eff s [] (push_q E (QUuid E a) (go E a k (WUuid E n) s))
| F_req a k sg k' n p : act E a (s_acts E s) = Some (k, sg) -> api_up E s = true -> reqs k sg k' n p ->
  eff s [] (push_q E (QRequest E n p a) (go E a k' (WResp E n) s))
| F_ret a k sg r : act E a (s_acts E s) = Some (k, sg) -> user_kind E k = true -> rets s a k sg r ->
  eff s [XRet E a r] (gone E a s)
| F_auth a k sg r : act E a (s_acts E s) = Some (k, sg) -> user_kind E k = false -> auths s a k sg r ->
  msg_up E s = true ->
  eff s [XAuthEnd E a r] (set_qauth E (s_qauth E s ++ [ASet r]) (gone E a s))
| F_auth_lost a k sg r : act E a (s_acts E s) = Some (k, sg) -> user_kind E k = false -> auths s a k sg r ->
  msg_up E s = false ->
  eff s [XAuthEnd E a r] (gone E a s)
| F_send n p a q : api_up E s = true -> s_q E s = QRequest E n p a :: q -> pfind n (s_pend E s) = None ->
  eff s [XSend E a n p true] (set_api E (s_api E s) ((n, a) :: s_pend E s) (s_seq E s) q (s_cancel E s) s)
| F_nosend n p a q : api_up E s = true -> s_q E s = QRequest E n p a :: q -> pfind n (s_pend E s) = None ->
  eff s [XSend E a n p false; XApiEnd E (Some XClientChannel)]
      (set_api E (Some (Some XClientChannel)) [] (s_seq E s) [] true s)
| F_api_end r n : api_up E s = true -> ends s r n ->
  eff s [XApiEnd E r] (set_api E (Some r) [] n [] true s)
| F_match n m q a k n' h m' : api_up E s = true -> s_q E s = QAccept E n m :: q ->
  pfind n (s_pend E s) = Some a -> act E a (s_acts E s) = Some (k, WResp E n') ->
  s_msg E s = MWait E h m' None ->
  eff s [XMatch E a n m]
      (set_mstate E (MWait E h m' (Some true))
         (go E a k (GResp E n m)
            (set_api E (s_api E s) (pdel n (s_pend E s)) (s_seq E s) q (s_cancel E s) s)))
| F_match_end n m q a k n' : api_up E s = true -> s_q E s = QAccept E n m :: q ->
  pfind n (s_pend E s) = Some a -> act E a (s_acts E s) = Some (k, WResp E n') ->
  (forall h m', s_msg E s <> MWait E h m' None) ->
  eff s [XMatch E a n m; XApiEnd E (Some XApiChannel)]
      (set_api E (Some (Some XApiChannel)) [] (s_seq E s) [] true (go E a k (GResp E n m) s))
| F_no n m q h m' : api_up E s = true -> s_q E s = QAccept E n m :: q -> pfind n (s_pend E s) = None ->
  s_msg E s = MWait E h m' None ->
  eff s [] (set_mstate E (MWait E h m' (Some false)) (set_q q s))
| F_fwd a q : api_up E s = true -> s_q E s = QUuid E a :: q -> msg_up E s = true ->
  eff s [] (set_qauth E (s_qauth E s ++ [AGet a]) (set_q q s))
| F_number a q k : api_up E s = true -> s_q E s = QSeq E a :: q -> act E a (s_acts E s) = Some (k, WSeq E) ->
  eff s [XSeqNo E a (next_seq (s_seq E s))]
      (go E a k (GSeq E (next_seq (s_seq E s)))
          (set_api E (s_api E s) (s_pend E s) (next_seq (s_seq E s)) q (s_cancel E s) s))
| F_stopping a q : api_up E s = true -> s_q E s = QShutdown E a :: q -> s_shut E s = ShWait ->
  eff s [] (set_shut E (s_qshut E s ++ [a]) ShWait (s_cancel E s) (set_q q s))
| F_buf ms b u : (s_msg E s = MIdle E \/ s_msg E s = MDrain E) -> (ms = MIdle E \/ ms = MDrain E) ->
  (u = s_uuid E s \/ u = None) ->
  eff s [] (set_msg E ms b u (s_qauth E s) (s_cancel E s) s)
| F_accepted h m : s_msg E s = MWait E h m (Some true) -> eff s [] (set_mstate E (MDrain E) s)
| F_emit e : (s_cli E s = None \/ msg_up E s = true) -> e = EDisconnected E \/ (exists x, e = EError E x /\ (s_msg E s = MIdle E \/ x <> XUnknown)) ->
  eff s [XEmit E e] (to_emit e s)
| F_dispatch h m ans e : s_msg E s = MWait E h m ans ->
  (ans = Some false \/ ans = None /\ api_up E s = false) ->
  (match x_broadcast E m with Some b => e = EBroadcast E b m | None => e = EError E XUnknown end) ->
  eff s [XEmit E e] (to_emit e (set_mstate E (MDrain E) s))
| F_in h m b : s_msg E s = MDrain E -> x_confirm E m = false -> api_up E s = true ->
  eff s [XIn E h m]
      (push_q E (QAccept E (h_seq h) m) (set_msg E (MWait E h m None) b (s_uuid E s) (s_qauth E s) (s_cancel E s) s))
| F_in_down h m b : s_msg E s = MDrain E -> x_confirm E m = false -> api_up E s = false ->
  eff s [XIn E h m] (set_msg E (MWait E h m None) b (s_uuid E s) (s_qauth E s) (s_cancel E s) s)
| F_spawn h m b : s_msg E s = MDrain E -> x_confirm E m = true ->
  eff s [XIn E h m; XSpawn E (s_next E s)]
      (add_act E (KAuth0 E) (set_msg E (MDrain E) b (s_uuid E s) (s_qauth E s) (s_cancel E s) s))
| F_connected t u q : s_msg E s = MIdle E -> s_qauth E s = ASet (inl t) :: q -> x_uuid E t = Some u ->
  eff s [XEmit E (EConnected E)]
      (to_emit (EConnected E) (set_msg E (MIdle E) (s_buf E s) (Some u) q (s_cancel E s) s))
| F_tell a q k n : s_msg E s = MIdle E -> s_qauth E s = AGet a :: q -> act E a (s_acts E s) = Some (k, WUuid E n) ->
  eff s [] (go E a k (GUuid E n (s_uuid E s)) (set_qauth E q s))
| F_msg_end r : s_msg E s = MIdle E -> mends s r ->
  eff s [XMsgEnd E r] (set_msg E (MEnd E r) (s_buf E s) (s_uuid E s) [] true s)
| F_cli r : s_cli E s = None -> eff s [XCliEnd E r] (set_cli E (Some r) true s)
| F_shut a q : s_shut E s = ShWait -> s_qshut E s = a :: q -> eff s [] (set_shut E [] (ShGot a) true s)
| F_noshut : s_shut E s = ShWait -> s_cancel E s = true -> eff s [] (set_shut E [] ShNone (s_cancel E s) s)
| F_done r : api_up E s = false -> msg_up E s = false -> s_cli E s <> None -> s_done E s = false ->
  eff s [XEmit E (EShutdown E r)] (set_done E (to_emit (EShutdown E r) s))
| F_over b r : s_done E s = true -> s_over E s = false -> s_emit E s = [] -> s_hand E s = None ->
  s_shut E s <> ShWait -> (b = true <-> s_shut E s <> ShNone) ->
  (forall a k, s_shut E s = ShGot a -> act E a (s_acts E s) <> Some (k, WStop E)) ->
  eff s [XOver E b r] (set_over E s)
| F_over_stop a k r : s_done E s = true -> s_over E s = false -> s_emit E s = [] -> s_hand E s = None ->
  s_shut E s = ShGot a -> act E a (s_acts E s) = Some (k, WStop E) ->
  eff s [XOver E true r] (go E a k (GStop E) (set_over E s))
| F_crash : s_msg E s = MIdle E -> eff s (snd (crash E s)) (fst (crash E s))
| F_event e q : s_emit E s = e :: q -> s_hand E s = None ->
  eff s [XEvent E e] (set_hand E (Some None) (set_emit E q s))
| F_hand h : s_hand E s <> None -> eff s [] (set_hand E h s).

Inductive effs (s : st) : list out -> st -> Prop :=
| Z_nil : effs s [] s
| Z_cons t s1 t2 s2 : eff s t s1 -> effs s1 t2 s2 -> effs s (t ++ t2) s2.

Lemma Z_one s t s' : eff s t s' -> effs s t s'.
Proof. intros F. rewrite <- (app_nil_r t). eapply Z_cons; [exact F|constructor]. Qed.

Lemma auth_end_effs (s : st) a k sg r : act E a (s_acts E s) = Some (k, sg) -> user_kind E k = false ->
  auths s a k sg r -> effs s (snd (end_auth E a r s)) (fst (end_auth E a r s)).
Proof.
  intros A U R. unfold end_auth. cbn [fst snd]. cbn zeta. destruct (msg_up E s) eqn:M; apply Z_one.
  - eapply F_auth; eassumption.
  - eapply F_auth_lost; eassumption.
Qed.

Lemma Z_one' s t t' s' s'' : eff s t s' -> s' = s'' -> t = t' -> effs s t' s''.
Proof. intros F <- <-. apply Z_one. exact F. Qed.

Lemma fails_effs (s : st) a k sg e : act E a (s_acts E s) = Some (k, sg) ->
  (user_kind E k = true -> rets s a k sg (RErr E e)) ->
  (waiting sg = true -> has_sender E a s = false) ->
  effs s (snd (fails E a k e s)) (fst (fails E a k e s)).
Proof.
  intros A T W. unfold fails. destruct k; cbn.
  1,2,3: eapply Z_one'; [eapply F_ret; [exact A|reflexivity|exact (T eq_refl)]|reflexivity|reflexivity].
  all: eapply auth_end_effs; [exact A|reflexivity|exact (A_err s a _ sg e W)].
Qed.

Lemma request_effs (s : st) a k sg k' n p : act E a (s_acts E s) = Some (k, sg) -> reqs k sg k' n p ->
  effs s (snd (request E a k' n p s)) (fst (request E a k' n p s)).
Proof.
  intros A R. unfold request. destruct (api_up E s) eqn:U.
  - eapply Z_one'; [eapply F_req; eassumption|reflexivity|reflexivity].
  - assert (W : waiting sg = false) by (destruct R; reflexivity).
    destruct R; unfold fails.
    + eapply auth_end_effs; [exact A|reflexivity|apply A_err]. cbn. discriminate.
    + apply Z_one. eapply F_ret; [exact A|reflexivity|apply R_down; [reflexivity|exact U]].
    + apply Z_one. eapply F_ret; [exact A|reflexivity|apply R_down; [reflexivity|exact U]].
    + eapply auth_end_effs; [exact A|reflexivity|apply A_err]. cbn. discriminate.
Qed.

Lemma emit_effs (s : st) e : msg_up E s = true -> e = EDisconnected E \/ (exists x, e = EError E x /\ (s_msg E s = MIdle E \/ x <> XUnknown)) ->
  effs s (snd (emit E e s)) (fst (emit E e s)).
Proof. intros U H. eapply Z_one'; [apply F_emit; [right; exact U|exact H]|reflexivity|reflexivity]. Qed.

Lemma Z_app s t s1 : effs s t s1 -> forall t2 s2, effs s1 t2 s2 -> effs s (t ++ t2) s2.
Proof.
  induction 1 as [|s t s1 t2 s2 F _ IH]; cbn; [auto|].
  intros t3 s3 H. rewrite <- app_assoc. eapply Z_cons; [exact F|]. apply IH. exact H.
Qed.

Lemma dispatch_effs (s : st) h m ans : s_msg E s = MWait E h m ans ->
  (ans = Some false \/ ans = None /\ api_up E s = false) ->
  effs s (snd (dispatch E m s)) (fst (dispatch E m s)).
Proof.
  intros S A. unfold dispatch. destruct (x_broadcast E m) eqn:B;
    (eapply Z_one'; [eapply F_dispatch with (1 := S) (2 := A); rewrite B; reflexivity|reflexivity|reflexivity]).
Qed.

Lemma not_accepted_effs (s : st) h m : s_msg E s = MWait E h m None -> api_up E s = false ->
  effs s (snd (not_accepted E m s)) (fst (not_accepted E m s)).
Proof.
  intros S A. unfold not_accepted. cbn [emit].
  match goal with |- context [dispatch E m ?x] => set (s1 := x) end.
  assert (D : effs s1 (snd (dispatch E m s1)) (fst (dispatch E m s1)))
    by (eapply dispatch_effs; [exact S|right; split; [reflexivity|exact A]]).
  destruct (dispatch E m s1) as [s2 t2]. cbn in *.
  change (XEmit E (EError E XPending) :: t2) with ([XEmit E (EError E XPending)] ++ t2).
  eapply Z_cons; [apply F_emit; [right; unfold msg_up; rewrite S; reflexivity|right; eexists; split; [reflexivity|right; discriminate]]|exact D].
Qed.

Lemma not_accepted_msg (s : st) ms m : not_accepted E m (set_mstate E ms s) = not_accepted E m s.
Proof. unfold not_accepted, dispatch. cbn. destruct (x_broadcast E m); reflexivity. Qed.

Lemma some_inj {A B} (p : A * B) x y : Some p = Some (x, y) -> x = fst p /\ y = snd p.
Proof. intros [= ->]. auto. Qed.

Lemma run_act_effs a ok s s' t : run_act E a ok s = Some (s', t) -> effs s t s'.
Proof.
  unfold run_act. destruct (act E a (s_acts E s)) as [[k sg]|] eqn:A; [|discriminate].
  destruct sg as [| |n|n|n u|n|n m| |].
  - intros H. apply some_inj in H. destruct H as [-> ->]. destruct k.
    + unfold ask. destruct (api_up E s) eqn:U.
      * eapply Z_one'; [eapply F_seq; [exact A|exact U|eauto]|reflexivity|reflexivity].
      * eapply fails_effs; [exact A|intros _; apply R_down; [reflexivity|exact U]|discriminate].
    + unfold ask. destruct (api_up E s) eqn:U.
      * eapply Z_one'; [eapply F_seq; [exact A|exact U|eauto]|reflexivity|reflexivity].
      * eapply fails_effs; [exact A|intros _; apply R_down; [reflexivity|exact U]|discriminate].
    + unfold ask. destruct (api_up E s) eqn:U.
      * eapply Z_one'; [eapply F_stop; [exact A|exact U]|reflexivity|reflexivity].
      * eapply fails_effs; [exact A|intros _; apply R_down; [reflexivity|exact U]|discriminate].
    + destruct ok; [eapply request_effs; [exact A|constructor]|eapply fails_effs; [exact A|try discriminate; intros _; first [apply R_pack|apply R_odd; discriminate|apply R_down; [reflexivity|assumption]]|discriminate]].
    + eapply fails_effs; [exact A|try discriminate; intros _; first [apply R_pack|apply R_odd; discriminate|apply R_down; [reflexivity|assumption]]|discriminate].
  - destruct (has_sender E a s) eqn:S; [discriminate|].
    intros H. apply some_inj in H. destruct H as [-> ->].
    eapply fails_effs; [exact A|intros _; apply R_closed; auto|auto].
  - intros H. apply some_inj in H. destruct H as [-> ->]. unfold ask. destruct (api_up E s) eqn:U.
    + eapply Z_one'; [eapply F_uuid; [exact A|exact U]|reflexivity|reflexivity].
    + eapply fails_effs; [exact A|try discriminate; intros _; first [apply R_pack|apply R_odd; discriminate|apply R_down; [reflexivity|assumption]]|discriminate].
  - destruct (has_sender E a s) eqn:S; [discriminate|].
    intros H. apply some_inj in H. destruct H as [-> ->].
    eapply fails_effs; [exact A|intros _; apply R_closed; auto|auto].
  - intros H. apply some_inj in H. destruct H as [-> ->]. destruct k.
    1,2: destruct ok; [eapply request_effs; [exact A|constructor]|eapply fails_effs; [exact A|try discriminate; intros _; first [apply R_pack|apply R_odd; discriminate|apply R_down; [reflexivity|assumption]]|discriminate]].
    all: eapply fails_effs; [exact A|try discriminate; intros _; first [apply R_pack|apply R_odd; discriminate|apply R_down; [reflexivity|assumption]]|discriminate].
  - destruct (has_sender E a s) eqn:S; [discriminate|].
    intros H. apply some_inj in H. destruct H as [-> ->].
    eapply fails_effs; [exact A|intros Z; apply R_closed; auto; destruct k; try discriminate; auto|auto].
  - intros H. apply some_inj in H. destruct H as [-> ->]. destruct k.
    + eapply Z_one'; [eapply F_ret; [exact A|reflexivity|]|reflexivity|reflexivity].
      destruct (x_answer E r m) eqn:R; [eapply R_ok; exact R|apply R_unexpected; exact R].
    + eapply Z_one'; [eapply F_ret; [exact A|reflexivity|]|reflexivity|reflexivity].
      destruct (x_beacon E m) as [[?|]|] eqn:R; [eapply R_refused|eapply R_confirmed|apply R_unexpected]; exact R.
    + eapply Z_one'; [eapply F_ret; [exact A|reflexivity|]|reflexivity|reflexivity]. apply R_unexpected. exact I.
    + destruct (x_self E m) as [t'|] eqn:R.
      * destruct ok; [eapply request_effs; [exact A|constructor; exact R]|].
        eapply auth_end_effs; [exact A|reflexivity|apply A_err; discriminate].
      * eapply auth_end_effs; [exact A|reflexivity|apply A_err; discriminate].
    + destruct (x_hash E m) as [[?|]|] eqn:R.
      1,3: eapply auth_end_effs; [exact A|reflexivity|apply A_err; discriminate].
      eapply auth_end_effs; [exact A|reflexivity|eapply A_ok; exact R].
  - destruct (has_sender E a s) eqn:S; [discriminate|].
    intros H. apply some_inj in H. destruct H as [-> ->].
    eapply fails_effs; [exact A|intros _; apply R_closed; auto|auto].
  - intros H. apply some_inj in H. destruct H as [-> ->].
    destruct k; try (eapply fails_effs; [exact A|try discriminate; intros _; first [apply R_pack|apply R_odd; discriminate|apply R_down; [reflexivity|assumption]]|discriminate]).
    eapply Z_one'; [eapply F_ret; [exact A|reflexivity|apply R_stopped]|reflexivity|reflexivity].
Qed.

Lemma api_effs ok s s' t : fire E (LApi E ok) s = Some (s', t) -> effs s t s'.
Proof.
  cbn. destruct (api_up E s) eqn:U; [|discriminate].
  destruct (s_q E s) as [|c q] eqn:Q; [discriminate|].
  destruct c as [n p a|n m|a|a|a]; cbn.
  - destruct (pfind n (s_pend E s)) as [b|] eqn:P.
    + intros [= <- <-]. eapply Z_one'; [eapply F_api_end; [exact U|eapply D_sequence; eassumption]|reflexivity|reflexivity].
    + destruct ok; intros [= <- <-].
      * eapply Z_one'; [eapply F_send; eassumption|reflexivity|reflexivity].
      * eapply Z_one'; [eapply F_nosend; eassumption|reflexivity|reflexivity].
  - destruct (pfind n (s_pend E s)) as [a|] eqn:P.
    + destruct (act E a (s_acts E s)) as [[k sg]|] eqn:A.
      * destruct sg as [| |?|?|? ?|n'|? ?| |].
        all: try (intros [= <- <-]; eapply Z_one'; [eapply F_api_end; [exact U|eapply D_late; [exact Q|exact P|rewrite A; discriminate]]|reflexivity|reflexivity]).
        destruct (s_msg E s) as [| |h m' [b|]|r] eqn:S; intros [= <- <-].
        all: try (eapply Z_one'; [eapply F_match_end; [exact U|exact Q|exact P|exact A|rewrite S; discriminate]|reflexivity|reflexivity]).
        eapply Z_one'; [eapply F_match; [exact U|exact Q|exact P|exact A|exact S]|reflexivity|reflexivity].
      * intros [= <- <-]; eapply Z_one'; [eapply F_api_end; [exact U|eapply D_late; [exact Q|exact P|rewrite A; discriminate]]|reflexivity|reflexivity].
    + destruct (s_msg E s) as [| |h m' [b|]|r] eqn:S; intros [= <- <-].
      all: try (eapply Z_one'; [eapply F_api_end; [exact U|eapply D_answer; [exact Q|rewrite S; discriminate]]|reflexivity|reflexivity]).
      eapply Z_one'; [eapply F_no; [exact U|exact Q|exact P|exact S]|reflexivity|reflexivity].
  - change (msg_up E (set_api E (s_api E s) (s_pend E s) (s_seq E s) q (s_cancel E s) s)) with (msg_up E s).
    destruct (msg_up E s) eqn:M; intros [= <- <-].
    + eapply Z_one'; [eapply F_fwd; eassumption|reflexivity|reflexivity].
    + eapply Z_one'; [eapply F_api_end; [exact U|eapply D_uuid; eassumption]|reflexivity|reflexivity].
  - destruct (act E a (s_acts E s)) as [[k sg]|] eqn:A.
    + destruct sg.
      all: try (intros [= <- <-]; eapply Z_one'; [eapply F_api_end; [exact U|eapply D_seq; [exact Q|rewrite A; discriminate]]|reflexivity|reflexivity]).
      intros [= <- <-]. eapply Z_one'; [eapply F_number; eassumption|reflexivity|reflexivity].
    + intros [= <- <-]; eapply Z_one'; [eapply F_api_end; [exact U|eapply D_seq; [exact Q|rewrite A; discriminate]]|reflexivity|reflexivity].
  - destruct (s_shut E s) eqn:S.
    + match goal with |- context [if ?b then _ else _] => destruct b; [|discriminate] end.
      intros [= <- <-]. eapply Z_one'; [eapply F_stopping; eassumption|reflexivity|reflexivity].
    + intros [= <- <-]. eapply Z_one'; [eapply F_api_end; [exact U|eapply D_shut; [exact Q|congruence]]|reflexivity|reflexivity].
    + intros [= <- <-]. eapply Z_one'; [eapply F_api_end; [exact U|eapply D_shut; [exact Q|congruence]]|reflexivity|reflexivity].
Qed.

Lemma event_effs e (s : st) : s_msg E s = MIdle E -> effs s (snd (client_event E e s)) (fst (client_event E e s)).
Proof.
  intros S. destruct e; unfold client_event.
  - destruct (chunk (x_get E) (x_sig E) (s_buf E s) data) as [[|e|] b].
    + eapply Z_one'; [eapply F_buf with (ms := MDrain E) (b := b) (u := s_uuid E s); auto|reflexivity|reflexivity].
    + eapply (Z_app s []).
      * eapply Z_one'; [eapply F_buf with (ms := MIdle E) (b := b) (u := s_uuid E s); auto|reflexivity|reflexivity].
      * eapply Z_one'; [apply F_emit; [right; reflexivity|right; eexists; split; [reflexivity|auto]]|reflexivity|reflexivity].
    + eapply Z_one'; [apply F_crash; exact S|reflexivity|reflexivity].
  - apply emit_effs; [unfold msg_up; rewrite S; reflexivity|]. right. eauto.
  - constructor.
  - eapply Z_one'; [eapply F_buf with (ms := MIdle E) (b := s_buf E s) (u := None); auto| |reflexivity].
    rewrite <- S. reflexivity.
  - apply emit_effs; [unfold msg_up; rewrite S; reflexivity|]. right. eauto.
Qed.

Lemma next_effs (s : st) : s_msg E s = MDrain E -> effs s (snd (next_msg E s)) (fst (next_msg E s)).
Proof.
  intros S. unfold next_msg. destruct (next (s_buf E s)) as [[[h m]|] b].
  - cbn zeta. destruct (x_confirm E m) eqn:C.
    + eapply Z_one'; [eapply F_spawn with (h := h) (m := m) (b := b); assumption|reflexivity|reflexivity].
    + destruct (api_up E s) eqn:U.
      * eapply Z_one'; [eapply F_in with (h := h) (m := m) (b := b); assumption|reflexivity|reflexivity].
      * set (s0 := set_msg E (MWait E h m None) b (s_uuid E s) (s_qauth E s) (s_cancel E s) s).
        assert (F : eff s [XIn E h m] s0) by (apply F_in_down; assumption).
        assert (D : effs s0 (snd (not_accepted E m s0)) (fst (not_accepted E m s0))).
        { eapply not_accepted_effs; [reflexivity|exact U]. }
        rewrite <- (not_accepted_msg _ (MWait E h m None)).
        change (set_mstate E (MWait E h m None) (set_msg E (MDrain E) b (s_uuid E s) (s_qauth E s) (s_cancel E s) s)) with s0.
        destruct (not_accepted E m s0) as [s2 t2]. cbn in *.
        change (XIn E h m :: t2) with ([XIn E h m] ++ t2). eapply Z_cons; [exact F|exact D].
  - eapply Z_one'; [eapply F_buf with (ms := MIdle E) (b := b) (u := s_uuid E s); auto|reflexivity|reflexivity].
Qed.

Lemma auth_effs (s : st) x q : s_msg E s = MIdle E -> s_qauth E s = x :: q ->
  effs s (snd (auth_msg E x (set_qauth E q s))) (fst (auth_msg E x (set_qauth E q s))).
Proof.
  intros S Q. destruct x as [[t|e]|a]; cbn.
  - destruct (x_uuid E t) as [u|] eqn:U.
    + eapply Z_one'; [eapply F_connected; eassumption|cbn; rewrite S; reflexivity|reflexivity].
    + eapply Z_one'; [eapply F_msg_end; [exact S|eapply N_uuid; eassumption]|reflexivity|reflexivity].
  - change [XEmit E (EError E e); XMsgEnd E (Some e)] with ([XEmit E (EError E e)] ++ [XMsgEnd E (Some e)]).
    eapply Z_cons; [apply F_emit; [right; unfold msg_up; rewrite S; reflexivity|right; eexists; split; [reflexivity|left; exact S]]|].
    eapply Z_one'; [eapply F_msg_end; [exact S|eapply N_auth; exact Q]|reflexivity|reflexivity].
  - destruct (act E a (s_acts E s)) as [[k sg]|] eqn:A.
    + destruct sg.
      all: try (eapply Z_one'; [eapply F_msg_end; [exact S|eapply N_tell; [exact Q|rewrite A; discriminate]]|reflexivity|reflexivity]).
      eapply Z_one'; [eapply F_tell; eassumption|reflexivity|reflexivity].
    + eapply Z_one'; [eapply F_msg_end; [exact S|eapply N_tell; [exact Q|rewrite A; discriminate]]|reflexivity|reflexivity].
Qed.

Theorem fire_effs l s s' t : fire E l s = Some (s', t) -> effs s t s'.
Proof.
  destruct l as [k|a| |a ok|a|ok| |e| | | | | |ok| | | | | | |a|].
  - cbn. destruct (user_kind E k) eqn:U; [|discriminate]. intros [= <- <-]. apply Z_one. constructor. exact U.
  - cbn. destruct (act E a (s_acts E s)) as [[k sg]|] eqn:A; [|discriminate].
    destruct (user_kind E k) eqn:U; [|discriminate]. intros [= <- <-]. apply Z_one. econstructor; eassumption.
  - cbn. intros [= <- <-]. apply Z_one. constructor.
  - apply run_act_effs.
  - cbn. destruct (act E a (s_acts E s)) as [[k sg]|] eqn:A; [|discriminate].
    destruct k; try discriminate. destruct sg; try discriminate; intros [= <- <-].
    + eapply Z_one'; [eapply F_ret; [exact A|reflexivity|apply R_timeout_w]|reflexivity|reflexivity].
    + eapply Z_one'; [eapply F_ret; [exact A|reflexivity|apply R_timeout_g]|reflexivity|reflexivity].
  - apply api_effs.
  - cbn. destruct (api_up E s) eqn:U; [|discriminate]. destruct (s_cancel E s) eqn:C; [|discriminate].
    intros [= <- <-]. eapply Z_one'; [eapply F_api_end; [exact U|apply D_cancel; exact C]|reflexivity|reflexivity].
  - cbn [fire]. destruct (s_msg E s) eqn:S; try discriminate. intros H. apply some_inj in H. destruct H as [-> ->].
    apply event_effs. exact S.
  - cbn. destruct (s_msg E s) eqn:S; try discriminate. intros [= <- <-].
    eapply Z_one'; [apply F_msg_end; [exact S|apply N_none]|reflexivity|reflexivity].
  - cbn [fire]. destruct (s_msg E s) eqn:S; try discriminate. intros H. apply some_inj in H. destruct H as [-> ->].
    apply next_effs. exact S.
  - cbn [fire]. destruct (s_msg E s) as [| |h m [[|]|]|r] eqn:S; try discriminate.
    + intros [= <- <-]. eapply Z_one'; [eapply F_accepted; exact S|reflexivity|reflexivity].
    + intros H. apply some_inj in H. destruct H as [-> ->]. eapply dispatch_effs; [exact S|auto].
    + destruct (api_up E s) eqn:U; [discriminate|]. intros H. apply some_inj in H. destruct H as [-> ->].
      eapply not_accepted_effs; [exact S|exact U].
  - cbn [fire]. destruct (s_msg E s) eqn:S; try discriminate.
    destruct (s_qauth E s) as [|x q] eqn:Q; [discriminate|].
    intros H. apply some_inj in H. destruct H as [-> ->]. apply auth_effs; assumption.
  - cbn. destruct (s_msg E s) eqn:S; try discriminate. destruct (s_cancel E s); [|discriminate].
    intros [= <- <-]. eapply Z_one'; [apply F_msg_end; [exact S|apply N_none]|reflexivity|reflexivity].
  - cbn. destruct (s_cli E s) eqn:C; [discriminate|]. destruct ok; cbn; intros [= <- <-].
    + change [XEmit E (EDisconnected E); XCliEnd E None] with ([XEmit E (EDisconnected E)] ++ [XCliEnd E None]).
      eapply Z_cons; [apply F_emit; [left; exact C|left; reflexivity]|].
      eapply Z_one'; [apply F_cli; exact C|reflexivity|reflexivity].
    + change [XEmit E (EError E XClient); XEmit E (EDisconnected E); XCliEnd E (Some XClient)]
        with ([XEmit E (EError E XClient)] ++ [XEmit E (EDisconnected E)] ++ [XCliEnd E (Some XClient)]).
      eapply Z_cons; [apply F_emit; [left; exact C|right; eexists; split; [reflexivity|right; discriminate]]|].
      eapply Z_cons; [apply F_emit; [left; exact C|left; reflexivity]|].
      eapply Z_one'; [apply F_cli; exact C|reflexivity|reflexivity].
  - cbn. destruct (s_cli E s) eqn:C; [discriminate|]. destruct (s_cancel E s) eqn:K; [|discriminate].
    intros [= <- <-].
    change [XEmit E (EDisconnected E); XCliEnd E None] with ([XEmit E (EDisconnected E)] ++ [XCliEnd E None]).
    eapply Z_cons; [apply F_emit; [left; exact C|left; reflexivity]|].
    eapply Z_one'; [apply F_cli; exact C|reflexivity|reflexivity].
  - cbn. destruct (s_shut E s) eqn:S; try discriminate. destruct (s_qshut E s) eqn:Q; [discriminate|].
    intros [= <- <-]. apply Z_one. eapply F_shut; eassumption.
  - cbn. destruct (s_shut E s) eqn:S; try discriminate. destruct (s_cancel E s) eqn:K; [|discriminate].
    intros [= <- <-]. eapply Z_one'; [eapply F_noshut; eassumption|cbn; rewrite K; reflexivity|reflexivity].
  - cbn. destruct (s_api E s) eqn:A; try discriminate. destruct (s_msg E s) eqn:S; try discriminate.
    destruct (s_cli E s) eqn:C; [|discriminate]. destruct (s_done E s) eqn:D; [discriminate|].
    intros [= <- <-]. apply Z_one.
    apply F_done; unfold api_up, msg_up; rewrite ?A, ?S, ?C; solve [reflexivity|discriminate|assumption].
  - cbn [fire]. destruct (s_api E s) eqn:A; try discriminate. destruct (s_msg E s) eqn:S; try discriminate.
    destruct (s_cli E s) eqn:C; [|discriminate]. destruct (s_emit E s) eqn:M; [|discriminate].
    destruct (s_hand E s) eqn:H; [discriminate|]. destruct (s_done E s) eqn:D; [|discriminate].
    destruct (s_over E s) eqn:O; [discriminate|]. cbn [andb negb].
    destruct (s_shut E s) as [|a|] eqn:Sh; [discriminate| |].
    + cbn zeta. change (s_acts E (set_over E s)) with (s_acts E s).
      destruct (act E a (s_acts E s)) as [[k sg]|] eqn:K; [destruct sg|]; intros [= <- <-]; apply Z_one.
      all: try (apply F_over; try assumption; rewrite ?Sh; try discriminate; [split; [intros _; discriminate|reflexivity]|intros ? ? [= <-]; rewrite K; discriminate]).
      eapply F_over_stop; eassumption.
    + intros [= <- <-]. apply Z_one. apply F_over; try assumption; rewrite Sh; try discriminate. split; [discriminate|congruence].
  - cbn. destruct (s_emit E s) eqn:M; [discriminate|]. destruct (s_hand E s) eqn:H; [discriminate|].
    intros [= <- <-]. apply Z_one. eapply F_event; eassumption.
  - cbn. destruct (s_hand E s) as [[?|]|] eqn:H; try discriminate.
    destruct (act E a (s_acts E s)) as [[k sg]|]; [|discriminate]. destruct (user_kind E k); [|discriminate].
    intros [= <- <-]. apply Z_one. apply F_hand. congruence.
  - cbn. destruct (s_hand E s) as [[a|]|] eqn:H; try discriminate.
    + destruct (act E a (s_acts E s)); [discriminate|]. intros [= <- <-]. apply Z_one. apply F_hand. congruence.
    + intros [= <- <-]. apply Z_one. apply F_hand. congruence.
Qed.

End Proofs.
