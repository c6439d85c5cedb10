(** What holds whenever a consumer does something. *)
From Coq Require Import List NArith Bool Lia Arith.
From Verif Require Import Bytes WireModel FrameModel.
From Verif Require Import ConsumerModel ConsumerProofs ConsumerInv ConsumerTrace ConsumerTrace2.
Import ListNotations.

Lemma split1 {A} (x o : A) t1 t2 : [x] = t1 ++ o :: t2 -> t1 = [] /\ x = o /\ t2 = [].
Proof. destruct t1 as [|y [|z t1]]; cbn; intros [= H1 H2]; subst; auto; discriminate. Qed.
Lemma split2 {A} (x y o : A) t1 t2 : [x; y] = t1 ++ o :: t2 -> (t1 = [] /\ x = o) \/ (t1 = [x] /\ y = o).
Proof. destruct t1 as [|u [|v [|w t1]]]; cbn; intros [= H1 H2]; subst; auto; try discriminate; injection H2; auto; discriminate. Qed.
Lemma split0 {A} (o : A) t1 t2 : [] = t1 ++ o :: t2 -> False.
Proof. destruct t1; discriminate. Qed.

Ltac splits Q :=
  try (unfold crash in Q; cbn [snd] in Q);
  match type of Q with
  | [] = _ => destruct (split0 _ _ _ Q)
  | [_] = _ => let Z1 := fresh in let Z2 := fresh in destruct (split1 _ _ _ _ Q) as (Z1&Z2&_); subst; try discriminate Z2; rewrite ?app_nil_r
  | [_; _] = _ => let Z1 := fresh in let Z2 := fresh in
      destruct (split2 _ _ _ _ _ Q) as [[Z1 Z2]|[Z1 Z2]]; subst; try discriminate Z2; rewrite ?app_nil_r
  end.

Section Good.
Variable E : cenv.
Notation st := (st E).
Notation out := (out E).
Notation acts := (s_acts E).

Lemma not_ended (tr : list out) s a x : inv E tr s -> act E a (acts s) = Some x -> forall o, In o tr -> ~ ended E a o.
Proof. intros I A o J D. rewrite (l_end _ _ _ (i_life _ _ _ I) a o J D) in A. discriminate. Qed.

Lemma up_no_api (tr : list out) s : inv E tr s -> api_up E s = true -> forall r, ~ In (XApiEnd E r) tr.
Proof. intros I U r J. rewrite (e_api _ _ _ (i_ends _ _ _ I)) in U; [discriminate|eauto]. Qed.
Lemma up_no_msg (tr : list out) s : inv E tr s -> msg_up E s = true -> forall r, ~ In (XMsgEnd E r) tr.
Proof. intros I U r J. rewrite (e_msg _ _ _ (i_ends _ _ _ I)) in U; [discriminate|eauto]. Qed.
Lemma not_over (tr : list out) s : inv E tr s -> s_over E s = false -> forall b r, ~ In (XOver E b r) tr.
Proof. intros I U b r J. rewrite (e_over _ _ _ (i_ends _ _ _ I)) in U; [discriminate|eauto]. Qed.
Lemma api_not_over (tr : list out) s : inv E tr s -> api_up E s = true -> s_over E s = false.
Proof.
  intros I U. destruct (s_over E s) eqn:O; [|reflexivity].
  destruct (k_over E s (i_tasks _ _ _ I) O) as (D&_). destruct (k_done E s (i_tasks _ _ _ I) D) as (A&_). congruence.
Qed.
Lemma msg_not_done (tr : list out) s : inv E tr s -> msg_up E s = true -> s_done E s = false.
Proof.
  intros I U. destruct (s_done E s) eqn:D; [|reflexivity].
  destruct (k_done E s (i_tasks _ _ _ I) D) as (_&A&_). congruence.
Qed.
Lemma done_not_over (tr : list out) s : inv E tr s -> s_done E s = false -> s_over E s = false.
Proof.
  intros I U. destruct (s_over E s) eqn:O; [|reflexivity].
  destruct (k_over E s (i_tasks _ _ _ I) O) as (D&_). congruence.
Qed.

Lemma good_match tr s t s' : inv E tr s -> eff E s t s' -> forall t1 a n m t2, t = t1 ++ XMatch E a n m :: t2 ->
  (exists h, cur E (tr ++ t1) = Some (h, m) /\ h_seq h = n) /\ owner E n (tr ++ t1) = Some a
  /\ (forall m', ~ In (XMatch E a n m') (tr ++ t1)) /\ (forall o, In o (tr ++ t1) -> ~ ended E a o).
Proof.
  intros I F t1 a n m t2 Q.
  assert (J : In (XMatch E a n m) t) by (rewrite Q; apply in_elt).
  destruct (eff_xmatch E _ _ _ F (i_senders _ _ _ I) (i_accepts _ _ _ I) _ _ _ J) as (P&U&_&(k&A)&T&_&h&M&H).
  rewrite T in Q. destruct (split1 _ _ _ _ Q) as (->&_&_). rewrite app_nil_r. repeat split.
  - exists h. split; [|exact H]. rewrite (i_cur _ _ _ I), M. reflexivity.
  - rewrite <- (i_owner _ _ _ I U). exact P.
  - intros m'. eapply (o_pend _ _ _ (i_once _ _ _ I)). apply pfind_in. exact P.
  - eapply not_ended; eauto.
Qed.

Lemma good_send tr s t s' : inv E tr s -> eff E s t s' -> forall t1 a n p ok t2, t = t1 ++ XSend E a n p ok :: t2 ->
  paid E a n p (tr ++ t1) /\ owner E n (tr ++ t1) = None /\ unsent E a n (tr ++ t1)
  /\ (forall r, ~ In (XApiEnd E r) (tr ++ t1)).
Proof.
  intros I F t1 a n p ok t2 Q.
  assert (J : In (XSend E a n p ok) t) by (rewrite Q; apply in_elt).
  destruct (eff_xsend E _ _ _ F _ _ _ _ J) as (U&P&q&HQ&_).
  assert (T1 : t1 = []) by (destruct F; splits Q; reflexivity).
  subst t1. rewrite app_nil_r.
  assert (K : In (QRequest E n p a) (s_q E s)) by (rewrite HQ; left; reflexivity).
  repeat split.
  - eapply (q_paid _ _ _ (i_asked _ _ _ I)); eauto.
  - rewrite <- (i_owner _ _ _ I U). exact P.
  - eapply (o_req _ _ _ (i_once _ _ _ I)); eauto.
  - eapply (o_req _ _ _ (i_once _ _ _ I)); eauto.
  - eapply up_no_api; eauto.
Qed.

Definition ret_ok (a : nat) (k : kind E) (r : cres E) (tr : list out) : Prop :=
  match r with
  | ROk _ i m => exists j x n, k = KReq E j x /\ x_answer E j m = Some i /\ In (XMatch E a n m) tr
  | RDone _ => (exists b x n m, k = KBeacon E b x /\ x_beacon E m = Some None /\ In (XMatch E a n m) tr)
               \/ (k = KShutdown E /\ exists e, In (XOver E true e) tr)
  | RErr _ XTimeout => exists j x n, k = KReq E j x /\ In (XSeqNo E a n) tr
  | RErr _ XUnexpected => exists n m, In (XMatch E a n m) tr /\
      ((exists j x, k = KReq E j x /\ x_answer E j m = None) \/ (exists b x, k = KBeacon E b x /\ x_beacon E m = None))
  | RErr _ (XBroadcast u) => exists n m, In (XMatch E a n m) tr /\ (exists b x, k = KBeacon E b x) /\ x_beacon E m = Some (Some u)
  | RErr _ XProtocol => is_call E k /\ forall n, unsent E a n tr
  | RErr _ XApiChannel | RErr _ XGetting => ending E tr
  | RErr _ _ => False
  end.

Lemma good_ret tr s t s' : inv E tr s -> eff E s t s' -> forall t1 a r t2, t = t1 ++ XRet E a r :: t2 ->
  (exists k, In (XCall E a k) (tr ++ t1) /\ ret_ok a k r (tr ++ t1)) /\ forall o, In o (tr ++ t1) -> ~ ended E a o.
Proof.
  intros I F t1 a r t2 Q. destruct F; splits Q.
  match goal with H : XRet _ _ _ = XRet _ _ _ |- _ => injection H as -> -> end.
  split; [|eapply not_ended; eauto].
  exists k. split; [eapply (l_call _ _ _ (i_life _ _ _ I)); eauto|].
  pose proof (fun m n H => g_match _ _ _ (i_staged _ _ _ I) a k n m H) as GM.
  pose proof (g_stage _ _ _ (i_staged _ _ _ I) _ _ _ H) as ST.
  pose proof (fun sg n H => g_number _ _ _ (i_staged _ _ _ I) a k sg n H H0) as GN.
  pose proof (fun sg C => i_kept _ _ _ I a k sg C) as KP.
  pose proof (i_why _ _ _ I) as WHY.
  assert (EN : s_cancel E s = true -> ending E tr) by (intros C; apply WHY; exact C).
  destruct H1; cbn.
  - assert (ending E tr).
    { apply EN. destruct (s_cancel E s) eqn:C; [reflexivity|]. exfalso. apply has_sender_iff in H2. exact (KP sg eq_refl H H1 H2). }
    destruct H3 as [-> | ->]; assumption.
  - apply EN. destruct (k_api E s (i_tasks _ _ _ I) H2) as (_&_&C). exact C.
  - split; [exact ST|]. intros n0. eapply (o_new _ _ _ (i_once _ _ _ I)); eauto.
  - exists n, m. split; [exact (GM _ _ H)|]. destruct k; try discriminate; [left|right|destruct ST]; eauto.
  - exists n, m. split; [exact (GM _ _ H)|]. split; [eauto|exact H1].
  - cbn in ST. congruence.
  - exists r, x, n. split; [reflexivity|]. exact (GN _ n H eq_refl).
  - exists r, x, n. split; [reflexivity|]. exact (GN _ n H eq_refl).
  - exists r, x, n. split; [reflexivity|]. split; [exact H1|exact (GM _ _ H)].
  - left. exists b, x, n, m. split; [reflexivity|]. split; [exact H1|exact (GM _ _ H)].
  - right. split; [reflexivity|]. eapply (g_stop _ _ _ (i_staged _ _ _ I)); eauto.
Qed.

Lemma good_auth tr s t s' : inv E tr s -> eff E s t s' -> forall t1 a r t2, t = t1 ++ XAuthEnd E a r :: t2 ->
  In (XSpawn E a) (tr ++ t1) /\ (forall o, In o (tr ++ t1) -> ~ ended E a o) /\
  match r with
  | inl u => exists m0 m1, In (XMatch E a 0 m0) (tr ++ t1) /\ x_self E m0 = Some u
             /\ In (XMatch E a 1 m1) (tr ++ t1) /\ x_hash E m1 = Some None
  | inr _ => True
  end.
Proof.
  intros I F t1 a r t2 Q. destruct F; splits Q.
  all: match goal with H : XAuthEnd _ _ _ = XAuthEnd _ _ _ |- _ => injection H as -> -> end.
  all: split; [eapply (l_spawn _ _ _ (i_life _ _ _ I)); eauto|split; [eapply not_ended; eauto|]].
  all: destruct H1; auto.
  all: destruct (g_self _ _ _ (i_staged _ _ _ I) _ _ _ H) as (m0&M1&M2); exists m0, m; repeat split; auto.
  all: pose proof (g_stage _ _ _ (i_staged _ _ _ I) _ _ _ H) as Z; cbn in Z; subst n.
  all: eapply (g_match _ _ _ (i_staged _ _ _ I)); eauto.
Qed.

Lemma good_number tr s t s' : inv E tr s -> eff E s t s' -> forall t1 a n t2, t = t1 ++ XSeqNo E a n :: t2 ->
  n = number (allocs E (tr ++ t1) + 1) /\ (exists k, is_call E k /\ In (XCall E a k) (tr ++ t1))
  /\ (forall o, In o (tr ++ t1) -> ~ ended E a o) /\ unsent E a n (tr ++ t1) /\ forall n', ~ In (XSeqNo E a n') (tr ++ t1).
Proof.
  intros I F t1 a n t2 Q. destruct F; splits Q.
  match goal with H : XSeqNo _ _ _ = XSeqNo _ _ _ |- _ => injection H as -> <- end.
  pose proof (g_stage _ _ _ (i_staged _ _ _ I) _ _ _ H1) as Z. cbn in Z. repeat split.
  - rewrite (i_seq _ _ _ I H). apply number_next.
  - exists k. split; [exact Z|]. eapply (l_call _ _ _ (i_life _ _ _ I)); eauto.
    destruct Z as (r&x&[-> | ->]); reflexivity.
  - eapply not_ended; eauto.
  - eapply (o_new _ _ _ (i_once _ _ _ I)); eauto.
  - eapply (o_new _ _ _ (i_once _ _ _ I)); eauto.
  - eapply (i_numb _ _ _ I); eauto.
Qed.

Lemma good_in tr s t s' : inv E tr s -> eff E s t s' -> forall t1 h m t2, t = t1 ++ XIn E h m :: t2 ->
  cur E (tr ++ t1) = None /\ (forall r, ~ In (XMsgEnd E r) (tr ++ t1)).
Proof.
  intros I F t1 h0 m0 t2 Q. destruct F; splits Q.
  all: split; [rewrite (i_cur _ _ _ I), H; reflexivity|eapply up_no_msg; eauto; unfold msg_up; rewrite H; reflexivity].
Qed.

Lemma good_fresh tr s t s' : inv E tr s -> eff E s t s' -> forall t1 o t2, t = t1 ++ o :: t2 ->
  match o with
  | XCall _ a k => user_kind E k = true /\ forall z, In z (tr ++ t1) -> ~ about E a z
  | XSpawn _ a => (exists t0 h m, tr ++ t1 = t0 ++ [XIn E h m] /\ x_confirm E m = true) /\ forall z, In z (tr ++ t1) -> ~ about E a z
  | XDrop _ a => forall z, In z (tr ++ t1) -> ~ ended E a z
  | _ => True
  end.
Proof.
  intros I F t1 o t2 Q.
  assert (N : forall z, In z tr -> ~ about E (s_next E s) z).
  { intros z J B. pose proof (l_lt _ _ _ (i_life _ _ _ I) _ _ J B). lia. }
  destruct F; splits Q; auto.
  - eapply not_ended; eauto.
  - split; [eauto 10|]. intros z J. apply in_app_iff in J. destruct J as [J|[<-|[]]]; [auto|cbn; auto].
Qed.

Lemma shutdown_called (tr : list out) s a : inv E tr s -> s_shut E s = ShGot a -> s_over E s = false -> In (XCall E a (KShutdown E)) tr.
Proof. intros I S O. apply (q_stop _ _ _ (i_asked _ _ _ I)). apply in_stop. auto. Qed.

Lemma good_over tr s t s' : inv E tr s -> eff E s t s' -> forall t1 b r t2, t = t1 ++ XOver E b r :: t2 ->
  (forall b' r', ~ In (XOver E b' r') (tr ++ t1)) /\
  (b = true -> exists a, In (XCall E a (KShutdown E)) (tr ++ t1)) /\
  (emitted E (tr ++ t1) = handled E (tr ++ t1)
   /\ (exists e, In (XEmit E (EShutdown E e)) (tr ++ t1)) \/ b = false /\ r = Some XPanic).
Proof.
  intros I F t1 b r t2 Q.
  assert (ED : s_over E s = false -> s_emit E s = [] -> emitted E tr = handled E tr).
  { intros O M. destruct (i_emit _ _ _ I) as (rest&R1&R2). rewrite R1, (R2 O), M, app_nil_r. reflexivity. }
  assert (SH : s_done E s = true -> s_over E s = false -> exists e, In (XEmit E (EShutdown E e)) tr).
  { intros D O. destruct (e_done' _ _ _ (i_ends _ _ _ I) D) as [X|X]; [exact X|].
    exfalso. exact (not_over tr s I O _ _ X). }
  destruct F; splits Q.
  all: match goal with H : XOver _ _ _ = XOver _ _ _ |- _ => injection H as <- <- end.
  - repeat split; auto.
    + eapply not_over; eauto.
    + intros ->. destruct (s_shut E s) as [|a|] eqn:S; [congruence| |destruct H4 as [H4 _]; elim (H4 eq_refl); reflexivity].
      exists a. eapply shutdown_called; eauto.
  - repeat split; auto.
    + eapply not_over; eauto.
    + intros _. exists a. eapply shutdown_called; eauto.
  - assert (O : s_over E s = false).
    { eapply done_not_over; eauto. eapply msg_not_done; eauto. unfold msg_up. rewrite H. reflexivity. }
    repeat split; auto; [eapply not_over; eauto|discriminate].
Qed.

Lemma good_event tr s t s' : inv E tr s -> eff E s t s' -> forall t1 e t2, t = t1 ++ XEvent E e :: t2 ->
  exists rest, emitted E (tr ++ t1) = handled E (tr ++ t1) ++ e :: rest.
Proof.
  intros I F t1 e t2 Q. destruct F; splits Q.
  match goal with H : XEvent _ _ = XEvent _ _ |- _ => injection H as <- end.
  destruct (i_emit _ _ _ I) as (rest&R1&R2). exists q. rewrite R1, R2, H; [reflexivity|].
  destruct (s_over E s) eqn:O; [|reflexivity]. destruct (k_over E s (i_tasks _ _ _ I) O) as (_&Z&_). congruence.
Qed.

(** the last word *)
Lemma good_quiet tr s t s' : inv E tr s -> eff E s t s' -> forall t1 o t2, t = t1 ++ o :: t2 ->
  (exists b r, In (XOver E b r) (tr ++ t1)) ->
  match o with XCall _ _ _ | XRet _ _ _ | XAuthEnd _ _ _ | XDrop _ _ | XCancel _ => True | _ => False end.
Proof.
  intros I F t1 o t2 Q OV.
  destruct (s_over E s) eqn:O.
  - destruct (k_over E s (i_tasks _ _ _ I) O) as (D&EM&H&W). destruct (k_done E s (i_tasks _ _ _ I) D) as (A&M&C).
    pose proof M as M'. unfold msg_up in M'.
    destruct F; splits Q; auto; try congruence.
    all: try match goal with H : s_msg E ?x = _ |- _ => rewrite H in M'; discriminate end.
    destruct H0; congruence.
  - assert (N := not_over tr s I O). destruct OV as (b&r&J). apply in_app_iff in J. destruct J as [J|J]; [elim (N b r J)|].
    exfalso. destruct F; splits Q; cbn in J;
    repeat match type of J with _ \/ _ => destruct J as [J|J] | False => destruct J end; discriminate.
Qed.

Lemma good_emit tr s t s' : inv E tr s -> eff E s t s' -> forall t1 e t2, t = t1 ++ XEmit E e :: t2 ->
  (forall r, ~ In (XEmit E (EShutdown E r)) (tr ++ t1)) /\
  match e with
  | EBroadcast _ b m => x_broadcast E m = Some b /\ exists h, cur E (tr ++ t1) = Some (h, m)
  | EError _ XUnknown => forall h m, cur E (tr ++ t1) = Some (h, m) -> x_broadcast E m = None
  | EConnected _ => (conns E (tr ++ t1) < shakes E (tr ++ t1))%nat /\
      exists a u v, In (XAuthEnd E a (inl u)) (tr ++ t1) /\ x_uuid E u = Some v
  | EShutdown _ _ => (exists r, In (XApiEnd E r) (tr ++ t1)) /\ (exists r, In (XMsgEnd E r) (tr ++ t1))
  | _ => True
  end.
Proof.
  intros I F t1 e t2 Q.
  assert (ND : s_done E s = false -> forall r, ~ In (XEmit E (EShutdown E r)) tr).
  { intros D r J. rewrite (e_done _ _ _ (i_ends _ _ _ I)) in D; [discriminate|eauto]. }
  assert (MU : forall x, s_msg E s = x -> match x with MEnd _ _ => False | _ => True end -> forall r, ~ In (XEmit E (EShutdown E r)) tr).
  { intros x M X. apply ND. eapply msg_not_done; eauto. unfold msg_up. rewrite M. destruct x; auto; contradiction. }
  destruct F; splits Q.
  all: match goal with H : XEmit _ _ = XEmit _ _ |- _ => injection H as <- end.
  - split.
    + apply ND. destruct (s_done E s) eqn:D; [|reflexivity]. destruct (k_done E s (i_tasks _ _ _ I) D) as (_&A&B).
      destruct H; congruence.
    + destruct H0 as [->|(x&->&[M|N])]; auto; destruct x; auto; try congruence.
      intros h m C. rewrite (i_cur _ _ _ I), M in C. discriminate.
  - split; [eapply MU; eauto; exact Logic.I|].
    assert (C : cur E tr = Some (h, m)).
    { rewrite (i_cur _ _ _ I), H. destruct H0 as [->|[-> _]]; reflexivity. }
    destruct (x_broadcast E m) eqn:B; subst; [eauto|].
    intros h' m' C'. congruence.
  - split; [eapply MU; eauto; exact Logic.I|]. split.
    + pose proof (i_conn _ _ _ I) as C. unfold conn_ok in C. rewrite H0 in C. cbn in C. lia.
    + destruct (g_auth _ _ _ (i_staged _ _ _ I) (inl t)) as [a A]; [rewrite H0; left; reflexivity|].
      exists a, t, u. auto.
  - split; [apply ND; assumption|].
    assert (NP : ~ panicked E tr) by (apply not_over with (s := s); [assumption|eapply done_not_over; eauto]).
    split; [destruct (e_api' _ _ _ (i_ends _ _ _ I) H)|destruct (e_msg' _ _ _ (i_ends _ _ _ I) H0)]; auto; contradiction.
Qed.

Lemma good_confirm tr s t s' : inv E tr s -> eff E s t s' -> forall t1 o t2, t = t1 ++ o :: t2 ->
  forall t0 h m, tr ++ t1 = t0 ++ [XIn E h m] -> x_confirm E m = true -> exists a, o = XSpawn E a.
Proof.
  intros I F t1 o t2 Q t0 h0 m0 Z C.
  assert (K : t1 = [] -> False) by (intros ->; rewrite app_nil_r in Z; rewrite (i_last _ _ _ I _ _ _ Z) in C; discriminate).
  destruct F; splits Q; try (elim K; reflexivity); eauto.
  all: apply app_inj_tail in Z; destruct Z as [_ Z]; discriminate Z.
Qed.

(** why the api task fails *)
Definition stale (tr : list out) : Prop :=
  exists h m a, cur E tr = Some (h, m) /\ owner E (h_seq h) tr = Some a /\
    (In (XDrop E a) tr \/ In (XRet E a (RErr E XTimeout)) tr).

Lemma good_apiend tr s t s' : inv E tr s -> eff E s t s' -> forall t1 r t2, t = t1 ++ XApiEnd E r :: t2 ->
  (forall r', ~ In (XApiEnd E r') (tr ++ t1)) /\
  match r with
  | Some XApiChannel => stale (tr ++ t1) \/ (exists a, In (XDrop E a) (tr ++ t1)) \/ (exists r', In (XMsgEnd E r') (tr ++ t1))
      \/ exists a, In (XCall E a (KShutdown E)) (tr ++ t1)
  | Some XClientChannel => exists a n p t0, tr ++ t1 = t0 ++ [XSend E a n p false]
  | Some (XSequence n) => exists a b p, owner E n (tr ++ t1) = Some a /\ paid E b n p (tr ++ t1) /\ unsent E b n (tr ++ t1)
  | Some _ => False
  | None => True
  end.
Proof.
  intros I F t1 r t2 Q.
  assert (NA : api_up E s = true -> forall r', ~ In (XApiEnd E r') tr) by (intros U; eapply up_no_api; eauto).
  destruct F; splits Q.
  all: match goal with H : XApiEnd _ _ = XApiEnd _ _ |- _ => injection H as <- end.
  - split; [|eauto 10]. intros r' J. apply in_app_iff in J. destruct J as [J|[J|[]]]; [|discriminate]. eapply NA; eauto.
  - split; [eapply NA; eauto|]. destruct H0; auto.
    + exists b, a, p. assert (K : In (QRequest E n p a) (s_q E s)) by (rewrite H0; left; reflexivity). split; [|split].
      * rewrite <- (i_owner _ _ _ I H). assumption.
      * eapply (q_paid _ _ _ (i_asked _ _ _ I)); eauto.
      * eapply (o_req _ _ _ (i_once _ _ _ I)); eauto.
    + left. pose proof (pend_sender E s n a H1) as PS.
      assert (A : act E a (acts s) = None).
      { destruct (act E a (acts s)) as [[k sg]|] eqn:A; [|reflexivity]. exfalso.
        pose proof (sender_stage E s a _ k sg (i_senders _ _ _ I) PS A) as W. destruct sg; try discriminate. eapply H2; reflexivity. }
      pose proof (i_accepts _ _ _ I) as AC. unfold accepts_ok in AC. rewrite H0, H in AC. cbn in AC.
      destruct (s_msg E s) as [| |h m' [b|]|] eqn:M; try discriminate. injection AC as -> -> _.
      exists h, m', a. repeat split.
      * rewrite (i_cur _ _ _ I), M. reflexivity.
      * rewrite <- (i_owner _ _ _ I H). exact H1.
      * destruct (i_left _ _ _ I a _ PS A) as [L|(?&_&L)]; auto.
    + exfalso. pose proof (i_accepts _ _ _ I) as AC. unfold accepts_ok in AC. rewrite H0 in AC. cbn in AC.
      destruct (s_msg E s) as [| |h m' [b|]|] eqn:M; try discriminate. eapply H1; reflexivity.
    + right. right. left. destruct (e_msg' _ _ _ (i_ends _ _ _ I) H1) as [X|X]; [exact X|].
      exfalso. exact (not_over tr s I (api_not_over tr s I H) _ _ X).
    + right. left. exists a.
      assert (PS : In SSeq (senders E a s)).
      { unfold senders. rewrite H0. cbn. rewrite one_same. left. reflexivity. }
      assert (A : act E a (acts s) = None).
      { destruct (act E a (acts s)) as [[k sg]|] eqn:A; [|reflexivity]. exfalso.
        pose proof (sender_stage E s a _ k sg (i_senders _ _ _ I) PS A) as W. destruct sg; try discriminate. eapply H1; reflexivity. }
      destruct (i_left _ _ _ I a _ PS A) as [L|(?&X&_)]; [exact L|discriminate].
    + right. right. right. exists a. apply (q_stop _ _ _ (i_asked _ _ _ I)). apply in_stop. left. rewrite H0. left. reflexivity.
  - exfalso. pose proof (i_accepts _ _ _ I) as AC. unfold accepts_ok in AC. rewrite H0 in AC. cbn in AC.
    destruct (s_msg E s) as [| |h m' [b|]|] eqn:M; try discriminate. eapply H3; reflexivity.
Qed.

Lemma good_msgend tr s t s' : inv E tr s -> eff E s t s' -> forall t1 r t2, t = t1 ++ XMsgEnd E r :: t2 ->
  (forall r', ~ In (XMsgEnd E r') (tr ++ t1)) /\ cur E (tr ++ t1) = None /\
  match r with
  | Some XUuid => (exists a u, In (XAuthEnd E a (inl u)) (tr ++ t1) /\ x_uuid E u = None) \/ exists a, In (XAuthEnd E a (inr XUuid)) (tr ++ t1)
  | Some XApiChannel => (exists a, In (XDrop E a) (tr ++ t1)) \/ exists a, In (XAuthEnd E a (inr XApiChannel)) (tr ++ t1)
  | Some e => exists a, In (XAuthEnd E a (inr e)) (tr ++ t1)
  | None => True
  end.
Proof.
  intros I F t1 r t2 Q. destruct F; splits Q.
  match goal with H : XMsgEnd _ _ = XMsgEnd _ _ |- _ => injection H as <- end.
  split; [eapply up_no_msg; eauto; unfold msg_up; rewrite H; reflexivity|].
  split; [rewrite (i_cur _ _ _ I), H; reflexivity|].
  pose proof (g_auth _ _ _ (i_staged _ _ _ I)) as GA.
  destruct H0; auto.
  - left. destruct (GA (inl t)) as [a A]; [rewrite H0; left; reflexivity|]. eauto.
  - destruct (GA (inr e)) as [a A]; [rewrite H0; left; reflexivity|]. destruct e; eauto.
  - left. exists a.
    assert (PS : In SUuid (senders E a s)).
    { unfold senders. rewrite !in_app_iff. right. right. left. rewrite H0. cbn. rewrite one_same. left. reflexivity. }
    assert (A : act E a (acts s) = None).
    { destruct (act E a (acts s)) as [[k sg]|] eqn:A; [|reflexivity]. exfalso.
      pose proof (sender_stage E s a _ k sg (i_senders _ _ _ I) PS A) as W. destruct sg; try discriminate. eapply H1; reflexivity. }
    destruct (i_left _ _ _ I a _ PS A) as [L|(?&X&_)]; [exact L|discriminate].
Qed.

End Good.
