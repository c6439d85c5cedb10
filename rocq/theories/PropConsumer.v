(** Properties of a generated consumer, stated over what happens in an execution
    ([exec]: any schedule of the tasks, any bytes from the transport, any calls of
    the application). *)
From Coq Require Import List NArith Bool Lia Arith.
From Coq Require Import Strings.Byte.
From Verif Require Import Bytes WireModel FrameModel FrameProofs.
From Verif Require Import ConsumerModel ConsumerProofs ConsumerInv ConsumerTrace ConsumerTrace2 ConsumerGood ConsumerSpec ConsumerLive.
Import ListNotations.

Section Props.
Variable E : cenv.
Notation out := (out E).
Notation exec := (exec E).

(** * C36: responses and requests *)

(** A message handed to activity [a] under number [n] is the one just taken from
    the buffer, it carries number [n], [a] has sent a request under that number
    which has not been answered, and [a] is still there. *)
Theorem C36_response_carries_number (t : list out) : exec t ->
  forall t1 a n m t2, t = t1 ++ XMatch E a n m :: t2 ->
  (exists h, in_hand E h m t1 /\ h_seq h = n) /\ outstanding E a n t1
  /\ (forall m', ~ In (XMatch E a n m') t1) /\ forall o, In o t1 -> ~ ended E a o.
Proof.
  intros X t1 a n m t2 Q. destruct (at_match E t X _ _ _ _ _ Q) as ((h&C&H)&O&M&A). split; [|split; [|auto]].
  - exists h. split; [|exact H]. eapply cur_sound; eauto.
  - apply owner_sound. exact O.
Qed.

Lemma in_prefix (t t1 t2 : list out) o : t = t1 ++ t2 -> In o t1 -> exists u1 u2, t1 = u1 ++ o :: u2 /\ t = u1 ++ o :: (u2 ++ t2).
Proof. intros Q J. destruct (in_split _ _ J) as (u1&u2&->). exists u1, u2. split; [reflexivity|]. rewrite Q, <- app_assoc. reflexivity. Qed.

Lemma fresh_split (P : out -> Prop) (t : list out) (o o' : out) :
  (forall t1 x t2, t = t1 ++ x :: t2 -> P x -> forall y, In y t1 -> ~ P y) ->
  In o t -> In o' t -> P o -> P o' -> o = o'.
Proof.
  intros H J J' K K'. destruct (in_split _ _ J) as (u1&u2&Q). rewrite Q in J'. apply in_app_iff in J'. destruct J' as [J'|[J'|J']].
  - elim (H _ _ _ Q K o' J' K').
  - exact J'.
  - destruct (in_split _ _ J') as (v1&v2&->). replace (u1 ++ o :: v1 ++ o' :: v2) with ((u1 ++ o :: v1) ++ o' :: v2) in Q
      by (rewrite <- app_assoc; reflexivity).
    elim (H _ _ _ Q K' o); [apply in_elt|exact K].
Qed.

Lemma match_unique (t : list out) a n m m' : exec t -> In (XMatch E a n m) t -> In (XMatch E a n m') t -> m = m'.
Proof.
  intros X J J'. enough (XMatch E a n m = XMatch E a n m') as [= ->] by reflexivity.
  apply (fresh_split (fun o => exists m, o = XMatch E a n m) t); eauto.
  intros t1 x t2 Q (m0&->) y K (m1&->). destruct (at_match E t X _ _ _ _ _ Q) as (_&_&N&_). exact (N _ K).
Qed.
Lemma number_unique (t : list out) a n n' : exec t -> In (XSeqNo E a n) t -> In (XSeqNo E a n') t -> n = n'.
Proof.
  intros X J J'. enough (XSeqNo E a n = XSeqNo E a n') as [= ->] by reflexivity.
  apply (fresh_split (fun o => exists n, o = XSeqNo E a n) t); eauto.
  intros t1 x t2 Q (m0&->) y K (m1&->). destruct (at_number E t X _ _ _ _ Q) as (_&_&_&_&N). exact (N _ K).
Qed.
Lemma call_unique (t : list out) a k k' : exec t -> In (XCall E a k) t -> In (XCall E a k') t -> k = k'.
Proof.
  intros X J J'. enough (XCall E a k = XCall E a k') as [= ->] by reflexivity.
  apply (fresh_split (fun o => exists k, o = XCall E a k) t); eauto.
  intros t1 x t2 Q (m0&->) y K (m1&->). destruct (at_fresh E t X _ _ _ Q) as (_&N). exact (N _ K eq_refl).
Qed.
Lemma call_not_spawn (t : list out) a k : exec t -> In (XCall E a k) t -> In (XSpawn E a) t -> False.
Proof.
  intros X J J'. enough (Z : XCall E a k = XSpawn E a) by discriminate Z.
  apply (fresh_split (fun o => (exists k, o = XCall E a k) \/ o = XSpawn E a) t); eauto.
  intros t1 x t2 Q [(m0&->)| ->] y K [(m1&->)| ->]; destruct (at_fresh E t X _ _ _ Q) as (_&N); exact (N _ K eq_refl).
Qed.

Lemma match_sent (t t1 t2 : list out) a n m : exec t -> t = t1 ++ t2 -> In (XMatch E a n m) t1 ->
  exists p, In (XSend E a n p true) t1 /\ paid E a n p t1.
Proof.
  intros X Q J. destruct (in_prefix _ _ _ _ Q J) as (u1&u2&Q1&Q2).
  destruct (at_match E t X _ _ _ _ _ Q2) as (_&O&_). destruct (owner_sound E n u1 a O) as (l1&l2&p&->&_).
  assert (Q3 : t = l1 ++ XSend E a n p true :: (l2 ++ XMatch E a n m :: (u2 ++ t2))) by (rewrite Q2, <- app_assoc; reflexivity).
  destruct (at_send E t X _ _ _ _ _ _ Q3) as (P&_). exists p. subst t1. split.
  - rewrite <- app_assoc. apply in_elt.
  - rewrite <- app_assoc. apply paid_app. exact P.
Qed.

(** A request that returns a response [m] (alternative [i] of its declaration) was
    sent under its own number, and [m] was received under that number. *)
Theorem C36_request_answered (t : list out) : exec t ->
  forall t1 a i m t2, t = t1 ++ XRet E a (ROk E i m) :: t2 ->
  exists r x n u h, In (XCall E a (KReq E r x)) t1 /\ In (XSeqNo E a n) t1 /\ In (XSend E a n (PUser E x u) true) t1
    /\ In (XIn E h m) t1 /\ h_seq h = n /\ In (XMatch E a n m) t1 /\ x_answer E r m = Some i.
Proof.
  intros X t1 a i m t2 Q. destruct (at_ret E t X _ _ _ _ Q) as ((k&C&r&x&n&->&A&M)&_).
  destruct (match_sent t t1 _ a n m X Q M) as (p&S&P).
  assert (In_t : forall o, In o t1 -> In o t) by (intros o J; rewrite Q; apply in_app_iff; auto).
  destruct (in_prefix _ _ _ _ Q M) as (u1&u2&Q1&Q2). destruct (at_match E t X _ _ _ _ _ Q2) as ((h&CU&H)&_).
  destruct (cur_sound E t X u1 _ h m Q2 CU) as (l1&l2&L&_).
  assert (JI : In (XIn E h m) t1) by (rewrite Q1, L; apply in_app_iff; left; apply in_elt).
  destruct p; cbn in P.
  - destruct P as [_ P]. elim (call_not_spawn t a _ X (In_t _ C) (In_t _ P)).
  - destruct P as (_&P&_). elim (call_not_spawn t a _ X (In_t _ C) (In_t _ P)).
  - destruct P as (SN&(r'&[CC|CC])&_); pose proof (call_unique t a _ _ X (In_t _ C) (In_t _ CC)) as Z; [|discriminate].
    injection Z as <- <-. exists r, x, n, u, h. auto 10.
Qed.

(** A call is answered at most once, sends at most one message, and ends at most once. *)
Theorem C36_at_most_once (t : list out) : exec t -> forall a k, In (XCall E a k) t ->
  (forall t1 n m t2, t = t1 ++ XMatch E a n m :: t2 -> forall n' m', ~ In (XMatch E a n' m') (t1 ++ t2)) /\
  (forall t1 n p ok t2, t = t1 ++ XSend E a n p ok :: t2 -> forall n' p' ok', ~ In (XSend E a n' p' ok') (t1 ++ t2)) /\
  (forall t1 o t2, t = t1 ++ o :: t2 -> ended E a o -> forall o', In o' (t1 ++ t2) -> ~ ended E a o').
Proof.
  intros X a k C.
  assert (SN : forall n p ok, In (XSend E a n p ok) t -> In (XSeqNo E a n) t).
  { intros n p ok J. destruct (in_split _ _ J) as (u1&u2&Q). destruct (at_send E t X _ _ _ _ _ _ Q) as (P&_).
    assert (In_t : forall o, In o u1 -> In o t) by (intros o W; rewrite Q; apply in_app_iff; auto).
    destruct p; cbn in P.
    - destruct P as [_ P]. elim (call_not_spawn t a _ X C (In_t _ P)).
    - destruct P as (_&P&_). elim (call_not_spawn t a _ X C (In_t _ P)).
    - apply In_t. apply P. }
  assert (MN : forall n m, In (XMatch E a n m) t -> In (XSeqNo E a n) t).
  { intros n m J. destruct (match_sent t t [] a n m X (eq_sym (app_nil_r t)) J) as (p&S&_). eapply SN; eauto. }
  assert (G : forall P : out -> Prop, (forall t1 x t2, t = t1 ++ x :: t2 -> P x -> forall y, In y t1 -> ~ P y) ->
    forall t1 o t2, t = t1 ++ o :: t2 -> P o -> forall o', In o' (t1 ++ t2) -> ~ P o').
  { intros P H t1 o t2 Q K o' J K'. apply in_app_iff in J. destruct J as [J|J]; [exact (H _ _ _ Q K o' J K')|].
    destruct (in_split _ _ J) as (v1&v2&->). replace (t1 ++ o :: v1 ++ o' :: v2) with ((t1 ++ o :: v1) ++ o' :: v2) in Q
      by (rewrite <- app_assoc; reflexivity).
    elim (H _ _ _ Q K' o); [apply in_elt|exact K]. }
  split; [|split].
  - intros t1 n m t2 Q n' m' J. revert J. 
    refine (fun J => G (fun o => exists n m, o = XMatch E a n m) _ t1 _ t2 Q (ex_intro _ n (ex_intro _ m eq_refl)) _ J (ex_intro _ n' (ex_intro _ m' eq_refl))).
    intros u1 x u2 Q2 (n1&m1&->) y Y (n2&m2&->).
    assert (n2 = n1).
    { eapply number_unique; eauto.
      - apply (MN n2 m2). rewrite Q2. apply in_app_iff. auto.
      - apply (MN n1 m1). rewrite Q2. apply in_elt. }
    subst n2. destruct (at_match E t X _ _ _ _ _ Q2) as (_&_&N&_). exact (N _ Y).
  - intros t1 n p ok t2 Q n' p' ok' J.
    refine (G (fun o => exists n p ok, o = XSend E a n p ok) _ t1 _ t2 Q
      (ex_intro _ n (ex_intro _ p (ex_intro _ ok eq_refl))) _ J (ex_intro _ n' (ex_intro _ p' (ex_intro _ ok' eq_refl)))).
    intros u1 x u2 Q2 (n1&p1&o1&->) y Y (n2&p2&o2&->).
    assert (n2 = n1).
    { eapply number_unique; eauto.
      - apply (SN n2 p2 o2). rewrite Q2. apply in_app_iff. auto.
      - apply (SN n1 p1 o1). rewrite Q2. apply in_elt. }
    subst n2. destruct (at_send E t X _ _ _ _ _ _ Q2) as (_&_&[N _]&_). exact (N _ _ Y).
  - apply G. intros u1 x u2 Q D y Y D'. destruct x; cbn in D; try contradiction; subst a0.
    + destruct (at_ret E t X _ _ _ _ Q) as (_&N). exact (N _ Y D').
    + destruct (at_auth E t X _ _ _ _ Q) as (_&N&_). exact (N _ Y D').
    + pose proof (at_fresh E t X _ _ _ Q) as N. exact (N _ Y D').
Qed.

(** * C50: every result of a call is explained by what happened before *)

(** [m] was received under number [n] and handed to [a], which had sent its request
    under that number. *)
Definition answered (a : nat) (n : N) (m : x_msg E) (t : list out) : Prop :=
  In (XMatch E a n m) t /\ (exists h, In (XIn E h m) t /\ h_seq h = n) /\ exists p, In (XSend E a n p true) t.

(** The connection is over or on its way: one of its tasks has ended, or it was
    cancelled, or [shutdown] was called. *)
Definition closing (t : list out) : Prop :=
  (exists r, In (XApiEnd E r) t) \/ (exists r, In (XMsgEnd E r) t) \/ (exists r, In (XCliEnd E r) t)
  \/ In (XCancel E) t \/ (exists a, In (XCall E a (KShutdown E)) t) \/ In (XOver E false (Some XPanic)) t.

Definition explained (a : nat) (k : kind E) (r : cres E) (t : list out) : Prop :=
  match r with
  | ROk _ i m => exists j x n, k = KReq E j x /\ answered a n m t /\ x_answer E j m = Some i
  | RDone _ =>
    (exists b x n m, k = KBeacon E b x /\ answered a n m t /\ x_beacon E m = Some None)
    \/ k = KShutdown E /\ exists e, In (XOver E true e) t
  | RErr _ XTimeout => exists j x n, k = KReq E j x /\ In (XSeqNo E a n) t
  | RErr _ XUnexpected => exists n m, answered a n m t /\
      ((exists j x, k = KReq E j x /\ x_answer E j m = None) \/ (exists b x, k = KBeacon E b x /\ x_beacon E m = None))
  | RErr _ (XBroadcast e) => exists b x n m, k = KBeacon E b x /\ answered a n m t /\ x_beacon E m = Some (Some e)
  | RErr _ XProtocol => (exists j x, k = KReq E j x \/ k = KBeacon E j x)
      /\ forall n p ok, ~ In (XSend E a n p ok) t
  | RErr _ XApiChannel | RErr _ XGetting => closing t
  | RErr _ _ => False
  end.

Theorem C50_results_explained (t : list out) : exec t ->
  forall t1 a r t2, t = t1 ++ XRet E a r :: t2 -> exists k, In (XCall E a k) t1 /\ explained a k r t1.
Proof.
  intros X t1 a r t2 Q. destruct (at_ret E t X _ _ _ _ Q) as ((k&C&R)&_). exists k. split; [exact C|].
  assert (AN : forall n m, In (XMatch E a n m) t1 -> answered a n m t1).
  { intros n m M. split; [exact M|]. split.
    - destruct (in_prefix _ _ _ _ Q M) as (u1&u2&Q1&Q2). destruct (at_match E t X _ _ _ _ _ Q2) as ((h&CU&H)&_).
      destruct (cur_sound E t X u1 _ h m Q2 CU) as (l1&l2&L&_). exists h. split; [|exact H].
      rewrite Q1, L. apply in_app_iff. left. apply in_elt.
    - destruct (match_sent t t1 _ a n m X Q M) as (p&S&_). eauto. }
  destruct r as [i m| |e]; cbn in *.
  - destruct R as (j&x&n&->&A&M). exists j, x, n. auto.
  - destruct R as [(b&x&n&m&->&A&M)|R]; [left; exists b, x, n, m; auto|auto].
  - destruct e; auto.
    + destruct R as (n&m&M&R). exists n, m. auto.
    + destruct R as ((j&x&R)&U). split; [eauto|]. intros n p ok. apply U.
    + destruct R as (n&m&M&(b&x&->)&R). exists b, x, n, m. auto.
Qed.

(** * C37: sequence numbers *)

Definition numbers (l : list out) : nat := length (filter (fun o => match o with XSeqNo _ _ _ => true | _ => false end) l).
Lemma numbers_allocs l : allocs E l = N.of_nat (numbers l).
Proof. induction l as [|o l IH]; [reflexivity|]. unfold numbers in *. destruct o; cbn [allocs filter length]; rewrite ?IH; lia. Qed.

Lemma number_range k : (10 <= number k <= 4294967293)%N.
Proof. unfold number, period. pose proof (N.mod_lt k 4294967284 ltac:(discriminate)). lia. Qed.

(** Numbers handed out are neither 0 nor 1 (nor any other below 10), nor 2^32-1 or
    2^32-2, and the message of a call carries the number handed out to it. *)
Theorem C37_numbers (t : list out) : exec t ->
  (forall a n, In (XSeqNo E a n) t -> (10 <= n <= 4294967293)%N /\ exists r x, In (XCall E a (KReq E r x)) t \/ In (XCall E a (KBeacon E r x)) t) /\
  (forall a n x u ok, In (XSend E a n (PUser E x u) ok) t -> In (XSeqNo E a n) t) /\
  (forall a n n', In (XSeqNo E a n) t -> In (XSeqNo E a n') t -> n = n').
Proof.
  intros X. split; [|split].
  - intros a n J. destruct (in_split _ _ J) as (u1&u2&Q). destruct (at_number E t X _ _ _ _ Q) as (->&(k&(r&x&K)&C)&_).
    split; [apply number_range|]. exists r, x.
    assert (JC : In (XCall E a k) t) by (rewrite Q; apply in_app_iff; auto).
    destruct K as [-> | ->]; auto.
  - intros a n x u ok J. destruct (in_split _ _ J) as (u1&u2&Q). destruct (at_send E t X _ _ _ _ _ _ Q) as ((P&_)&_).
    rewrite Q. apply in_app_iff. auto.
  - intros a n n'. apply number_unique. exact X.
Qed.

(** At any time, an unanswered number belongs to one request. *)
Theorem C37_outstanding_distinct (t : list out) : exec t ->
  forall t1 t2, t = t1 ++ t2 -> forall a b n, outstanding E a n t1 -> outstanding E b n t1 -> a = b.
Proof.
  intros X t1 t2 Q a b n A B. pose proof (owner_complete E t X _ _ _ _ Q A) as OA.
  rewrite (owner_complete E t X _ _ _ _ Q B) in OA. congruence.
Qed.

(** The same number is handed out again only after all 4294967284 numbers. *)
Theorem C37_reuse (t : list out) : exec t ->
  forall u1 a n u2 b u3, t = u1 ++ XSeqNo E a n :: u2 ++ XSeqNo E b n :: u3 -> (4294967283 <= N.of_nat (numbers u2))%N.
Proof.
  intros X u1 a n u2 b u3 Q. destruct (at_number E t X _ _ _ _ Q) as (N1&_).
  replace (u1 ++ XSeqNo E a n :: u2 ++ XSeqNo E b n :: u3) with ((u1 ++ XSeqNo E a n :: u2) ++ XSeqNo E b n :: u3) in Q
    by (rewrite <- app_assoc; reflexivity).
  destruct (at_number E t X _ _ _ _ Q) as (N2&_). rewrite allocs_app in N2. cbn [allocs] in N2.
  rewrite <- numbers_allocs. rewrite N1 in N2. unfold number, period in N2.
  set (x := (allocs E u1 + 1)%N) in *. set (y := allocs E u2) in *.
  replace (allocs E u1 + (1 + y) + 1)%N with (x + (y + 1))%N in N2 by lia.
  destruct (N.le_gt_cases 4294967283 y) as [L|L]; [exact L|exfalso].
  assert (M : (x mod 4294967284 = (x + (y + 1)) mod 4294967284)%N) by lia.
  pose proof (N.mod_lt x 4294967284 ltac:(discriminate)). pose proof (N.div_mod' x 4294967284) as D1.
  pose proof (N.div_mod' (x + (y + 1)) 4294967284) as D2. rewrite <- M in D2.
  set (q1 := (x / 4294967284)%N) in *. set (q2 := ((x + (y + 1)) / 4294967284)%N) in *. lia.
Qed.

(** * C51: the fate of every message received *)

Definition taken (h : header) (m : x_msg E) (o : out) : Prop :=
  (exists a, o = XMatch E a (h_seq h) m)
  \/ (exists b, x_broadcast E m = Some b /\ o = XEmit E (EBroadcast E b m))
  \/ x_broadcast E m = None /\ o = XEmit E (EError E XUnknown).

Definition gives (o : out) : Prop :=
  (exists a n m, o = XMatch E a n m) \/ (exists b m, o = XEmit E (EBroadcast E b m)).

Lemma first_reset (l : list out) : forall x : header * x_msg E, fold_left (cur1 E) l (Some x) = None -> (forall h m, ~ In (XIn E h m) l) ->
  exists u1 o u2, l = u1 ++ o :: u2 /\ fold_left (cur1 E) u1 (Some x) = Some x /\ cur1 E (Some x) o = None.
Proof.
  induction l as [|o l IH]; intros x F N; [discriminate|]. cbn [fold_left] in F.
  assert (D : cur1 E (Some x) o = None \/ cur1 E (Some x) o = Some x).
  { destruct o; cbn; auto.
    - exfalso. eapply N. left. reflexivity.
    - destruct e; auto. destruct e; auto. }
  destruct D as [D|D].
  - exists [], o, l. auto.
  - rewrite D in F. destruct (IH x F) as (u1&o'&u2&->&A&B).
    + intros h m J. eapply N. right. exact J.
    + exists (o :: u1), o', u2. cbn [fold_left]. rewrite D. auto.
Qed.

(** A message that is no confirmation is handed to the request it answers, or to
    the broadcast handler if it is a declared broadcast, or reported as unknown:
    exactly one of these, before the next message is looked at. *)
Theorem C51_fate (t : list out) : exec t ->
  forall l1 h m l2 z l3, t = l1 ++ XIn E h m :: l2 ++ z :: l3 ->
  (exists h' m', z = XIn E h' m') \/ (exists r, z = XMsgEnd E r) -> (forall h' m', ~ In (XIn E h' m') l2) ->
  if x_confirm E m then exists a l, l2 = XSpawn E a :: l /\ forall o, In o l -> ~ gives o
  else exists u1 o u2, l2 = u1 ++ o :: u2 /\ taken h m o /\ forall o', In o' (u1 ++ u2) -> ~ gives o'.
Proof.
  intros X l1 h m l2 z l3 Q Z NI.
  assert (QZ : t = (l1 ++ XIn E h m :: l2) ++ z :: l3) by (rewrite Q, <- app_assoc; reflexivity).
  assert (CZ : cur E (l1 ++ XIn E h m :: l2) = None).
  { destruct Z as [(h'&m'&->)|(r&->)]; [destruct (at_in E t X _ _ _ _ QZ); assumption|].
    destruct (at_msgend E t X _ _ _ QZ) as (_&C&_). exact C. }
  destruct (at_in E t X _ _ _ _ Q) as (C0&_).
  (* nothing is given while there is no message *)
  assert (NG : forall w1 w2 w3, l2 = w1 ++ w2 ++ w3 -> cur E (l1 ++ XIn E h m :: w1) = None -> forall o, In o w2 -> ~ gives o).
  { intros w1 w2 w3 W CN o J G. destruct (in_split _ _ J) as (v1&v2&->).
    assert (CV : cur E (l1 ++ XIn E h m :: w1 ++ v1) = None).
    { replace (l1 ++ XIn E h m :: w1 ++ v1) with ((l1 ++ XIn E h m :: w1) ++ v1) by (rewrite <- app_assoc; reflexivity).
      unfold cur. rewrite fold_left_app. fold (cur E (l1 ++ XIn E h m :: w1)). rewrite CN.
      assert (NV : forall h' m', ~ In (XIn E h' m') v1).
      { intros h' m' JV. apply (NI h' m'). rewrite W. rewrite !in_app_iff. auto. }
      clear -NV. induction v1 as [|y v1 IH]; [reflexivity|]. cbn [fold_left].
      replace (cur1 E None y) with (@None (header * x_msg E)).
      - apply IH. intros h' m' J. eapply NV. right. exact J.
      - destruct y; auto; [exfalso; eapply NV; left; reflexivity|]. destruct e; auto. destruct e; auto. }
    assert (QO : t = (l1 ++ XIn E h m :: w1 ++ v1) ++ o :: (v2 ++ w3 ++ z :: l3)).
    { rewrite Q, W. repeat (rewrite <- ?app_assoc; cbn [app]). reflexivity. }
    destruct G as [(a&n&m'&->)|(b&m'&->)].
    - destruct (at_match E t X _ _ _ _ _ QO) as ((?&G&_)&_). congruence.
    - destruct (at_emit E t X _ _ _ QO) as (_&_&?&G). congruence. }
  assert (CS : forall w, cur E (l1 ++ XIn E h m :: w) = fold_left (cur1 E) w (if x_confirm E m then None else Some (h, m))).
  { intros w. unfold cur. rewrite fold_left_app. fold (cur E l1). rewrite C0. cbn [fold_left cur1]. reflexivity. }
  destruct (x_confirm E m) eqn:CF.
  - destruct l2 as [|o l].
    + destruct (at_confirm E t X (l1 ++ [XIn E h m]) z l3) with (t0 := l1) (h := h) (m := m) as [a A]; auto.
      destruct Z as [(?&?&->)|(?&->)]; discriminate.
    + destruct (at_confirm E t X (l1 ++ [XIn E h m]) o (l ++ z :: l3)) with (t0 := l1) (h := h) (m := m) as [a A]; auto.
      { rewrite Q, <- app_assoc. reflexivity. }
      subst o. exists a, l. split; [reflexivity|]. apply (NG [XSpawn E a] l []); [rewrite app_nil_r; reflexivity|].
      rewrite CS. reflexivity.
  - rewrite CS in CZ. destruct (first_reset l2 (h, m) CZ NI) as (u1&o&u2&L&F1&F2). exists u1, o, u2. split; [exact L|].
    assert (C1 : cur E (l1 ++ XIn E h m :: u1) = Some (h, m)) by (rewrite CS; exact F1).
    assert (QO : t = (l1 ++ XIn E h m :: u1) ++ o :: (u2 ++ z :: l3)).
    { rewrite Q, L. repeat (rewrite <- ?app_assoc; cbn [app]). reflexivity. }
    assert (TK : taken h m o).
    { destruct o; cbn in F2; try discriminate F2.
      - exfalso. eapply NI. rewrite L. apply in_elt.
      - destruct (at_match E t X _ _ _ _ _ QO) as ((h'&G&G2)&_). rewrite C1 in G. injection G as <- <-. subst n. left. eauto.
      - destruct (at_emit E t X _ _ _ QO) as (_&G). destruct e; try discriminate F2.
        + destruct e; try discriminate F2. right. right. split; [|reflexivity]. eapply G. exact C1.
        + destruct G as (B&h'&G). rewrite C1 in G. injection G as <- <-. right. left. eauto. }
    split; [exact TK|]. intros o' J. apply in_app_iff in J. destruct J as [J|J].
    + intros G. destruct (in_split _ _ J) as (v1&v2&->).
      assert (CV : fold_left (cur1 E) v1 (Some (h, m)) = None \/ fold_left (cur1 E) v1 (Some (h, m)) = Some (h, m)).
      { assert (NV : forall h' m', ~ In (XIn E h' m') v1).
        { intros h' m' JV. apply (NI h' m'). rewrite L. rewrite !in_app_iff. auto. }
        clear -NV. induction v1 as [|y v1 IH] using rev_ind; [auto|]. rewrite fold_left_app. cbn [fold_left].
        destruct IH as [IH|IH]; [intros h' m' J; eapply NV; apply in_app_iff; left; exact J|rewrite IH|rewrite IH].
        - left. destruct y; auto; [exfalso; eapply NV; apply in_app_iff; right; left; reflexivity|]. destruct e; auto. destruct e; auto.
        - destruct y; cbn; auto; [exfalso; eapply NV; apply in_app_iff; right; left; reflexivity|]. destruct e; auto. destruct e; auto. }
      rewrite fold_left_app in F1. cbn [fold_left] in F1.
      assert (NR : forall v (x : option (header * x_msg E)), (forall h' m', ~ In (XIn E h' m') v) -> x = None -> fold_left (cur1 E) v x = None).
      { clear. induction v as [|y v IH]; intros x NV ->; [reflexivity|]. cbn [fold_left]. apply IH; [intros h' m' J; eapply NV; right; exact J|].
        destruct y; auto; [exfalso; eapply NV; left; reflexivity|]. destruct e; auto. destruct e; auto. }
      assert (R1 : cur1 E (fold_left (cur1 E) v1 (Some (h, m))) o' = None).
      { destruct G as [(?&?&?&->)|(?&?&->)]; reflexivity. }
      rewrite (NR v2) in F1; [discriminate F1| |exact R1].
      intros h' m' JV. apply (NI h' m'). rewrite L. rewrite !in_app_iff. left. right. right. exact JV.
    + apply (NG (u1 ++ [o]) u2 []); auto.
      * rewrite L, app_nil_r, <- app_assoc. reflexivity.
      * rewrite CS, fold_left_app, F1. cbn [fold_left]. exact F2.
Qed.

(** * C39: broadcasts and requests *)

(** A message under a number below 10 (a broadcast has 0) is never the answer to a
    call of the application; it can only be taken by a handshake that is waiting
    for an answer under this very number.  Missing: it can (see the refutation). *)
Theorem C39_no_call_takes_a_broadcast_partial (t : list out) : exec t ->
  forall t1 a n m t2, t = t1 ++ XMatch E a n m :: t2 -> (n < 10)%N ->
  (forall k, ~ In (XCall E a k) t) /\ In (XSpawn E a) t1 /\
  ((n = 0%N /\ In (XSend E a 0 (PSelf E) true) t1) \/ (n = 1%N /\ In (XSend E a 1 (PHash E) true) t1)) /\ outstanding E a n t1.
Proof.
  intros X t1 a n m t2 Q L.
  assert (M : In (XMatch E a n m) (t1 ++ [XMatch E a n m])) by (apply in_app_iff; right; left; reflexivity).
  assert (Q' : t = (t1 ++ [XMatch E a n m]) ++ t2) by (rewrite Q, <- app_assoc; reflexivity).
  destruct (at_match E t X _ _ _ _ _ Q) as (_&O&_). pose proof (owner_sound E n t1 a O) as OS.
  destruct OS as (l1&l2&p&L1&NM).
  assert (Q3 : t = l1 ++ XSend E a n p true :: (l2 ++ XMatch E a n m :: t2)) by (rewrite Q, L1, <- app_assoc; reflexivity).
  destruct (at_send E t X _ _ _ _ _ _ Q3) as (P&_).
  assert (In1 : forall o, In o l1 -> In o t1) by (intros o J; rewrite L1; apply in_app_iff; auto).
  assert (S1 : In (XSend E a n p true) t1) by (rewrite L1; apply in_elt).
  assert (SP : In (XSpawn E a) t1 /\ ((n = 0%N /\ p = PSelf E) \/ (n = 1%N /\ p = PHash E))).
  { destruct p; cbn in P.
    - destruct P as [-> P]. split; [auto|left; auto].
    - destruct P as (->&P&_). split; [auto|right; auto].
    - exfalso. destruct P as (SN&_). destruct (C37_numbers t X) as (R&_).
      assert (JT : In (XSeqNo E a n) t) by (rewrite Q; apply in_app_iff; auto).
      destruct (R _ _ JT) as (?&_). lia. }
  destruct SP as (SP&KP). split; [|split; [exact SP|split]].
  - intros k C. apply (call_not_spawn t a k X C). rewrite Q. apply in_app_iff. auto.
  - destruct KP as [[-> ->]|[-> ->]]; auto.
  - apply owner_sound. exact O.
Qed.

(** So a declared broadcast goes to its handler if no handshake waits. *)
Corollary C39_broadcast_delivered_partial (t : list out) : exec t ->
  forall l1 h m l2 z l3 b, t = l1 ++ XIn E h m :: l2 ++ z :: l3 ->
  (exists h' m', z = XIn E h' m') \/ (exists r, z = XMsgEnd E r) -> (forall h' m', ~ In (XIn E h' m') l2) ->
  x_confirm E m = false -> x_broadcast E m = Some b -> h_seq h = 0%N ->
  (forall a u1 u2, l2 = u1 ++ u2 -> ~ outstanding E a 0 (l1 ++ XIn E h m :: u1)) ->
  In (XEmit E (EBroadcast E b m)) l2.
Proof.
  intros X l1 h m l2 z l3 b Q Z NI CF B H0 NO. pose proof (C51_fate t X _ _ _ _ _ _ Q Z NI) as F. rewrite CF in F.
  destruct F as (u1&o&u2&L&T&_). rewrite L. destruct T as [(a&->)|[(b'&B'&->)|(B'&_)]]; [|rewrite B in B'; injection B' as <-; apply in_elt|congruence].
  exfalso. rewrite H0 in L. 
  assert (QO : t = (l1 ++ XIn E h m :: u1) ++ XMatch E a 0 m :: (u2 ++ z :: l3)).
  { rewrite Q, L. repeat (rewrite <- ?app_assoc; cbn [app]). reflexivity. }
  destruct (C36_response_carries_number t X _ _ _ _ _ QO) as (_&O&_). exact (NO a u1 _ L O).
Qed.

(** * C40: connected *)

(** The whole handshake of activity [a], in this order: the producer's
    confirmation, the self key, its answer (with the uuid [u]), the hashes, their
    acceptance, the end of the handshake. *)
Definition handshake (a : nat) (u : bytes) (t : list out) : Prop :=
  exists h m m0 m1 l0 l1 l2 l3 l4 l5 l6,
    t = l0 ++ XIn E h m :: XSpawn E a :: l1 ++ XSend E a 0 (PSelf E) true :: l2 ++ XMatch E a 0 m0 :: l3
           ++ XSend E a 1 (PHash E) true :: l4 ++ XMatch E a 1 m1 :: l5 ++ XAuthEnd E a (inl u) :: l6
    /\ x_confirm E m = true /\ x_self E m0 = Some u /\ x_hash E m1 = Some None.

Lemma auth_handshake (t : list out) : exec t -> forall a u, In (XAuthEnd E a (inl u)) t -> handshake a u t.
Proof.
  intros X a u J. destruct (in_split _ _ J) as (t1&t2&Q). destruct (at_auth E t X _ _ _ _ Q) as (_&_&m0&m1&M0&S0&M1&H1).
  assert (In_t : forall o, In o t1 -> In o t) by (intros o W; rewrite Q; apply in_app_iff; auto).
  destruct (in_prefix _ _ _ _ Q M1) as (p1&p2&P1&P2).
  destruct (at_match E t X _ _ _ _ _ P2) as (_&O1&_). destruct (owner_sound E _ _ _ O1) as (q1&q2&p&Q1&_).
  assert (P3 : t = q1 ++ XSend E a 1 p true :: (q2 ++ XMatch E a 1 m1 :: p2 ++ XAuthEnd E a (inl u) :: t2)).
  { rewrite P2, Q1, <- app_assoc. reflexivity. }
  destruct (at_send E t X _ _ _ _ _ _ P3) as (PD&_).
  assert (p = PHash E /\ exists m', In (XMatch E a 0 m') q1) as (->&m'&M').
  { destruct p; cbn in PD.
    - destruct PD; discriminate.
    - destruct PD as (_&_&m'&?&M'&_). eauto.
    - exfalso. destruct PD as (SN&_). destruct (C37_numbers t X) as (R&_).
      assert (JT : In (XSeqNo E a 1) t) by (rewrite P3; apply in_app_iff; auto). destruct (R _ _ JT) as (?&_). lia. }
  assert (m' = m0).
  { eapply (match_unique t a 0); auto. rewrite P3. apply in_app_iff. auto. }
  subst m'. destruct (in_prefix _ _ _ _ P3 M') as (r1&r2&R1&R2).
  destruct (at_match E t X _ _ _ _ _ R2) as (_&O0&_). destruct (owner_sound E _ _ _ O0) as (s1&s2&p&S1&_).
  assert (P4 : t = s1 ++ XSend E a 0 p true :: (s2 ++ XMatch E a 0 m0 :: r2 ++ XSend E a 1 (PHash E) true :: q2 ++ XMatch E a 1 m1 :: p2 ++ XAuthEnd E a (inl u) :: t2)).
  { rewrite R2, S1, <- app_assoc. reflexivity. }
  destruct (at_send E t X _ _ _ _ _ _ P4) as (PD0&_).
  assert (p = PSelf E /\ In (XSpawn E a) s1) as (->&SP).
  { destruct p; cbn in PD0.
    - destruct PD0; auto.
    - destruct PD0; discriminate.
    - exfalso. destruct PD0 as (SN&_). destruct (C37_numbers t X) as (R&_).
      assert (JT : In (XSeqNo E a 0) t) by (rewrite P4; apply in_app_iff; auto). destruct (R _ _ JT) as (?&_). lia. }
  destruct (in_prefix _ _ _ _ P4 SP) as (v1&v2&V1&V2). destruct (at_fresh E t X _ _ _ V2) as ((v0&h&m&V3&CF)&_).
  exists h, m, m0, m1, v0, v2, s2, r2, q2, p2, t2. split; [|auto].
  rewrite V2, V3, <- app_assoc. reflexivity.
Qed.

Definition connecteds (t : list out) : nat := length (filter (fun o => match o with XEmit _ (EConnected _) => true | _ => false end) t).
Definition handshakes (t : list out) : nat := length (filter (fun o => match o with XAuthEnd _ _ (inl _) => true | _ => false end) t).
Lemma connecteds_conns t : conns E t = connecteds t.
Proof. unfold connecteds. induction t as [|o t IH]; [reflexivity|]. destruct o; cbn; auto. destruct e; cbn; auto. Qed.
Lemma handshakes_shakes t : shakes E t = handshakes t.
Proof. unfold handshakes. induction t as [|o t IH]; [reflexivity|]. destruct o; cbn; auto. destruct r; cbn; auto. Qed.

Lemma handshake_app a u t1 t2 : handshake a u t1 -> handshake a u (t1 ++ t2).
Proof.
  intros (h&m&m0&m1&l0&l1&l2&l3&l4&l5&l6&->&A). exists h, m, m0, m1, l0, l1, l2, l3, l4, l5, (l6 ++ t2). split; [|exact A].
  repeat (rewrite <- ?app_assoc; cbn [app]). reflexivity.
Qed.

Lemma in_prefix_handshake (t t1 t2 : list out) a u : exec t -> t = t1 ++ t2 -> In (XAuthEnd E a (inl u)) t1 -> handshake a u t1.
Proof.
  intros X Q J. destruct (auth_handshake t X a u) as (h&m&m0&m1&l0&l1&l2&l3&l4&l5&l6&L&A); [rewrite Q; apply in_app_iff; auto|].
  destruct (in_split _ _ J) as (v1&v2&V).
  assert (QV : t = v1 ++ XAuthEnd E a (inl u) :: (v2 ++ t2)) by (rewrite Q, V, <- app_assoc; reflexivity).
  set (pre := l0 ++ XIn E h m :: XSpawn E a :: l1 ++ XSend E a 0 (PSelf E) true :: l2 ++ XMatch E a 0 m0 :: l3
           ++ XSend E a 1 (PHash E) true :: l4 ++ XMatch E a 1 m1 :: l5).
  assert (QP : t = pre ++ XAuthEnd E a (inl u) :: l6).
  { rewrite L. unfold pre. repeat (rewrite <- ?app_assoc; cbn [app]). reflexivity. }
  assert (v1 = pre).
  { destruct (at_auth E t X _ _ _ _ QV) as (_&N1&_). destruct (at_auth E t X _ _ _ _ QP) as (_&N2&_).
    rewrite QV in QP. clear -QP N1 N2. destruct (app_eq_app _ _ _ _ QP) as (w&[[W1 W2]|[W1 W2]]).
    - destruct w as [|y w]; [rewrite app_nil_r in W1; exact W1|]. injection W2 as <- W2. exfalso.
      apply (N1 (XAuthEnd E a (inl u))); [rewrite W1; apply in_elt|reflexivity].
    - destruct w as [|y w]; [rewrite app_nil_r in W1; symmetry; exact W1|]. injection W2 as <- W2. exfalso.
      apply (N2 (XAuthEnd E a (inl u))); [rewrite W1; apply in_elt|reflexivity]. }
  exists h, m, m0, m1, l0, l1, l2, l3, l4, l5, v2. split; [|exact A].
  rewrite V, H. unfold pre. repeat (rewrite <- ?app_assoc; cbn [app]). reflexivity.
Qed.

(** 'connected' is reported only after a complete handshake of its own, whose uuid
    is well-formed. *)
Theorem C40_connected_after_handshake (t : list out) : exec t ->
  forall t1 t2, t = t1 ++ XEmit E (EConnected E) :: t2 ->
  (connecteds t1 < handshakes t1)%nat /\ exists a u v, handshake a u t1 /\ x_uuid E u = Some v.
Proof.
  intros X t1 t2 Q. destruct (at_emit E t X _ _ _ Q) as (_&C&a&u&v&A&U).
  rewrite <- connecteds_conns, <- handshakes_shakes. split; [exact C|]. exists a, u, v. split; [|exact U].
  eapply in_prefix_handshake; eauto.
Qed.

(** A message is packed with a uuid only if a handshake gave this uuid. *)
Theorem C40_uuid_from_handshake (t : list out) : exec t ->
  forall t1 a n x v ok t2, t = t1 ++ XSend E a n (PUser E x (Some v)) ok :: t2 ->
  exists b u, handshake b u t1 /\ x_uuid E u = Some v.
Proof.
  intros X t1 a n x v ok t2 Q. destruct (at_send E t X _ _ _ _ _ _ Q) as ((_&_&NM)&_).
  destruct (NM v eq_refl) as (b&u&A&U). exists b, u. split; [|exact U]. eapply in_prefix_handshake; eauto.
Qed.

(** * C52: events *)

Lemma exec_emit_ok (t : list out) : exec t -> exists rest, emitted E t = handled E t ++ rest.
Proof. intros (ls&s&R). destruct (i_emit _ _ _ (runs_inv E ls _ [] s t (start_inv E) R)) as (rest&H&_). eauto. Qed.

Definition put (t : list out) : list (cevent E) := flat_map (fun o => match o with XEmit _ e => [e] | _ => [] end) t.
Definition seen (t : list out) : list (cevent E) := flat_map (fun o => match o with XEvent _ e => [e] | _ => [] end) t.
Lemma put_emitted t : emitted E t = put t.
Proof. induction t as [|o t IH]; [reflexivity|]. destruct o; cbn; rewrite ?IH; reflexivity. Qed.
Lemma seen_handled t : handled E t = seen t.
Proof. induction t as [|o t IH]; [reflexivity|]. destruct o; cbn; rewrite ?IH; reflexivity. Qed.

(** The handlers are called one event after another, in the order in which the
    events were emitted, and none is skipped or invented; when the connection is
    over without a panic all of them have been called; the shutdown event is the
    last one. *)
Theorem C52_events_in_order (t : list out) : exec t ->
  (exists rest, put t = seen t ++ rest) /\
  (forall b r, In (XOver E b r) t -> r <> Some XPanic -> put t = seen t /\ exists e, In (XEvent E (EShutdown E e)) t) /\
  (forall t1 e t2, t = t1 ++ XEmit E (EShutdown E e) :: t2 -> put t2 = []).
Proof.
  intros X. split; [|split].
  - destruct (exec_emit_ok t X) as (rest&H). exists rest. rewrite <- put_emitted, <- seen_handled. exact H.
  - intros b r J NP. destruct (in_split _ _ J) as (t1&t2&Q). destruct (at_over E t X _ _ _ _ Q) as (_&_&[(EQ&e&JE)|[_ ?]]); [|contradiction].
    assert (QT : forall o, In o t2 -> match o with XCall _ _ _ | XRet _ _ _ | XAuthEnd _ _ _ | XDrop _ _ | XCancel _ => True | _ => False end).
    { intros o K. destruct (in_split _ _ K) as (v1&v2&->).
      apply (at_quiet E t X (t1 ++ XOver E b r :: v1) o v2).
      - rewrite Q, <- app_assoc. reflexivity.
      - exists b, r. apply in_elt. }
    assert (P2 : put t2 = [] /\ seen t2 = []).
    { clear -QT. induction t2 as [|o t2 IH]; [auto|]. destruct IH as [I1 I2]; [intros o' K; apply QT; right; exact K|].
      pose proof (QT o (or_introl eq_refl)) as Z. destruct o; try contradiction; cbn; auto. }
    destruct P2 as [P2 S2]. split.
    + rewrite Q. unfold put, seen in *. rewrite !flat_map_app. cbn. rewrite P2, S2, !app_nil_r. 
      pose proof (put_emitted t1) as Z1. pose proof (seen_handled t1) as Z2. unfold put, seen in Z1, Z2. rewrite <- Z1, <- Z2. exact EQ.
    + assert (JS : In (EShutdown E e) (seen t1)).
      { rewrite <- seen_handled, <- EQ, put_emitted. unfold put. apply in_flat_map. eexists. split; [exact JE|left; reflexivity]. }
      unfold seen in JS. apply in_flat_map in JS. destruct JS as (o&K&W). exists e. rewrite Q. apply in_app_iff. left.
      destruct o; cbn in W; try contradiction. destruct W as [->|[]]. exact K.
  - intros t1 e t2 Q. destruct (put t2) as [|x l] eqn:P; [reflexivity|exfalso].
    assert (K : In x (put t2)) by (rewrite P; left; reflexivity). unfold put in K. apply in_flat_map in K. destruct K as (o&K&W).
    destruct o; cbn in W; try contradiction. destruct W as [->|[]].
    destruct (in_split _ _ K) as (v1&v2&->).
    destruct (at_emit E t X (t1 ++ XEmit E (EShutdown E e) :: v1) x v2) as (N&_); [rewrite Q, <- app_assoc; reflexivity|].
    eapply N. apply in_elt.
Qed.

(** Subsequences *)
Inductive subseq {A} : list A -> list A -> Prop :=
| sub_nil : subseq [] []
| sub_skip x l k : subseq l k -> subseq l (x :: k)
| sub_take x l k : subseq l k -> subseq (x :: l) (x :: k).
Lemma subseq_refl {A} (l : list A) : subseq l l.
Proof. induction l as [|x l IH]; [apply sub_nil|first [apply sub_take; exact IH|apply sub_skip; exact IH]]. Qed.
Lemma subseq_app {A} (l k l' k' : list A) : subseq l k -> subseq l' k' -> subseq (l ++ l') (k ++ k').
Proof. induction 1; intros S; cbn; [exact S|apply sub_skip; auto|apply sub_take; auto]. Qed.
Lemma subseq_nil {A} (l : list A) : subseq [] l.
Proof. induction l as [|x l IH]; [apply sub_nil|first [apply sub_take; exact IH|apply sub_skip; exact IH]]. Qed.
Lemma subseq_prefix {A} (l r k : list A) : subseq (l ++ r) k -> subseq l k.
Proof.
  intros S. remember (l ++ r) as u eqn:Q. revert l Q. induction S; intros l0 Q.
  - destruct l0; [constructor|discriminate].
  - apply sub_skip. auto.
  - destruct l0; [apply subseq_nil|]. injection Q as -> ->. apply sub_take. auto.
Qed.

Definition arrived (t : list out) : list (x_msg E) := flat_map (fun o => match o with XIn _ _ m => [m] | _ => [] end) t.
Definition casts (l : list (cevent E)) : list (x_msg E) := flat_map (fun e => match e with EBroadcast _ _ m => [m] | _ => [] end) l.

Lemma casts_arrived (t : list out) : exec t -> forall t1 t2, t = t1 ++ t2 ->
  match cur E t1 with
  | None => subseq (casts (put t1)) (arrived t1)
  | Some (h, m) => exists r, arrived t1 = r ++ [m] /\ subseq (casts (put t1)) r
  end.
Proof.
  intros X. induction t1 as [|o t1 IH] using rev_ind; intros t2 Q; [constructor|].
  assert (Q' : t = t1 ++ o :: t2) by (rewrite Q, <- app_assoc; reflexivity). specialize (IH _ Q').
  unfold cur. rewrite fold_left_app. fold (cur E t1). cbn [fold_left].
  unfold put, arrived, casts in *. rewrite !flat_map_app. cbn [flat_map]. rewrite app_nil_r.
  destruct o; cbn [cur1 flat_map app]; rewrite ?app_nil_r; try exact IH.
  - destruct (at_in E t X _ _ _ _ Q') as (C&_). rewrite C in *. destruct (x_confirm E m).
    + rewrite <- (app_nil_r (flat_map _ (flat_map _ t1))). apply subseq_app; [exact IH|apply subseq_nil].
    + eexists. split; [reflexivity|exact IH].
  - destruct (cur E t1) as [[h' m']|]; [|exact IH]. destruct IH as (r&->&IH).
    rewrite <- (app_nil_r (flat_map _ (flat_map _ t1))). apply subseq_app; [exact IH|apply subseq_nil].
  - destruct e; try (cbn; rewrite ?app_nil_r; exact IH).
    + assert (W : match cur E t1 with Some (h, m) => exists r, flat_map (fun o => match o with XIn _ _ m => [m] | _ => [] end) t1 = r ++ [m]
        /\ subseq (flat_map (fun e => match e with EBroadcast _ _ m => [m] | _ => [] end) (flat_map (fun o => match o with XEmit _ e => [e] | _ => [] end) t1)) r
        | None => subseq (flat_map (fun e => match e with EBroadcast _ _ m => [m] | _ => [] end) (flat_map (fun o => match o with XEmit _ e => [e] | _ => [] end) t1))
            (flat_map (fun o => match o with XIn _ _ m => [m] | _ => [] end) t1) end) by exact IH.
      cbn. rewrite app_nil_r. destruct e; try exact IH.
      destruct (cur E t1) as [[h' m']|]; [|exact IH]. destruct IH as (r&->&IH).
      rewrite <- (app_nil_r (flat_map _ (flat_map _ t1))). apply subseq_app; [exact IH|apply subseq_nil].
    + destruct (at_emit E t X _ _ _ Q') as (_&_&h&C). rewrite C in *. destruct IH as (r&->&IH). cbn.
      apply subseq_app; [exact IH|apply subseq_refl].
Qed.

(** The broadcast handlers see messages that arrived, in their order, each at most
    as often as it arrived. *)
Theorem C52_broadcasts_in_order (t : list out) : exec t -> subseq (casts (seen t)) (arrived t).
Proof.
  intros X. pose proof (casts_arrived t X t [] (eq_sym (app_nil_r t))) as C.
  assert (S : subseq (casts (put t)) (arrived t)).
  { destruct (cur E t) as [[h m]|]; [|exact C]. destruct C as (r&->&C).
    rewrite <- (app_nil_r (casts _)). apply subseq_app; [exact C|apply subseq_nil]. }
  destruct (C52_events_in_order t X) as ((rest&P)&_). rewrite P in S. unfold casts in S. rewrite flat_map_app in S.
  eapply subseq_prefix. exact S.
Qed.

(** * C53: the end of a connection *)

(** It is reported once; a positive report means that [shutdown] was called; after
    it nothing is sent, nothing is taken from the buffer, no event happens. *)
Theorem C53_over (t : list out) : exec t -> forall t1 b r t2, t = t1 ++ XOver E b r :: t2 ->
  (b = true -> exists a, In (XCall E a (KShutdown E)) t1) /\
  (forall b' r', ~ In (XOver E b' r') (t1 ++ t2)) /\
  forall o, In o t2 -> (exists a k, o = XCall E a k) \/ o = XCancel E \/ exists a, ended E a o.
Proof.
  intros X t1 b r t2 Q. destruct (at_over E t X _ _ _ _ Q) as (N&S&_).
  assert (QT : forall o, In o t2 -> match o with XCall _ _ _ | XRet _ _ _ | XAuthEnd _ _ _ | XDrop _ _ | XCancel _ => True | _ => False end).
  { intros o K. destruct (in_split _ _ K) as (v1&v2&->). apply (at_quiet E t X (t1 ++ XOver E b r :: v1) o v2).
    - rewrite Q, <- app_assoc. reflexivity.
    - exists b, r. apply in_elt. }
  split; [exact S|]. split.
  - intros b' r' J. apply in_app_iff in J. destruct J as [J|J]; [exact (N _ _ J)|exact (QT _ J)].
  - intros o J. pose proof (QT o J) as Z. destruct o; try contradiction; cbn; eauto 6.
Qed.

(** When the connection is over, every call and handshake that is still there ends
    with its next step. *)
Theorem C53_calls_end (ls : list (label E)) s t : runs E ls (start E) = Some (s, t) -> s_over E s = true ->
  forall a k sg, act E a (s_acts E s) = Some (k, sg) ->
  exists o, fire E (LAct E a true) s = Some (gone E a s, [o]) /\ ended E a o.
Proof.
  intros R O a k sg A. pose proof (runs_inv E ls _ [] s t (start_inv E) R) as I. cbn in I.
  destruct (k_over E s (i_tasks _ _ _ I) O) as (D&_&_&W). destruct (k_done E s (i_tasks _ _ _ I) D) as (U&V&C).
  eapply call_ends; eauto.
  - exists t. exact I.
  - split; [split; assumption|exact C|exact W].
  - intros (_&?&_). congruence.
Qed.

(** * C54: stopping *)

(** From every reachable state in which the connection has been cancelled (by the
    application, by [shutdown], or because one of its tasks ended), its own tasks
    can bring it to its end, provided no handler awaits the [shutdown] being
    granted.  Missing: that case (see the refutation). *)
Theorem C54_can_stop_partial (ls : list (label E)) s t : runs E ls (start E) = Some (s, t) ->
  s_cancel E s = true -> s_over E s = false ->
  (forall a, s_hand E s = Some (Some a) -> s_shut E s <> ShGot a) ->
  exists ls' s' t' b r, forallb (internal E) ls' = true /\ runs E ls' s = Some (s', t') /\ In (XOver E b r) t'.
Proof.
  intros R C O N. pose proof (runs_inv E ls _ [] s t (start_inv E) R) as I. cbn in I.
  destruct (can_end E s) as (ls'&s'&t'&F&R'&O').
  - split; auto; [exists t; exact I|]. intros (a&k&H&S&_). exact (N a H S).
  - pose proof (runs_inv E ls' _ t s' t' I R') as I'. destruct (e_over' _ _ _ (i_ends _ _ _ I') O') as (b&r&J).
    apply in_app_iff in J. destruct J as [J|J]; [elim (not_over E t s I O _ _ J)|].
    exists ls', s', t', b, r. auto.
Qed.

(** * C38, C55: what can bring the requests' task down *)

(** The task that keeps the requests fails only because the transport refused a
    message, or a number was used twice, or for lack of a partner: a late response
    arrived for a request that had timed out or been abandoned, a call was
    abandoned, the message task had ended, or [shutdown] was called. *)
Theorem C38_why_requests_fail_partial (t : list out) : exec t -> forall t1 e t2, t = t1 ++ XApiEnd E (Some e) :: t2 ->
  (e = XClientChannel /\ exists a n p t0, t1 = t0 ++ [XSend E a n p false]) \/
  (exists n a, e = XSequence n /\ outstanding E a n t1) \/
  (e = XApiChannel /\
    ((exists h m a, in_hand E h m t1 /\ outstanding E a (h_seq h) t1
        /\ (In (XDrop E a) t1 \/ In (XRet E a (RErr E XTimeout)) t1))
     \/ (exists a, In (XDrop E a) t1) \/ (exists r, In (XMsgEnd E r) t1) \/ exists a, In (XCall E a (KShutdown E)) t1)).
Proof.
  intros X t1 e t2 Q. destruct (at_apiend E t X _ _ _ Q) as (_&A). destruct e; try contradiction.
  - right. right. split; [reflexivity|]. destruct A as [(h&m&a&C&O&D)|A]; [left|right; exact A].
    exists h, m, a. split; [eapply cur_sound; eauto|]. split; [apply owner_sound; exact O|exact D].
  - left. auto.
  - right. left. destruct A as (a&_&_&O&_). exists n, a. split; [reflexivity|]. apply owner_sound. exact O.
Qed.

(** As long as no late response arrives, timeouts do no harm: if nobody abandons a
    call or calls [shutdown], and the message task is alive, the task fails only by
    the transport or a number used twice. *)
Corollary C38_timeouts_alone_partial (t : list out) : exec t -> forall t1 e t2, t = t1 ++ XApiEnd E (Some e) :: t2 ->
  (forall a, ~ In (XDrop E a) t1) -> (forall r, ~ In (XMsgEnd E r) t1) -> (forall a, ~ In (XCall E a (KShutdown E)) t1) ->
  (forall h m a, in_hand E h m t1 -> In (XRet E a (RErr E XTimeout)) t1 -> ~ outstanding E a (h_seq h) t1) ->
  e = XClientChannel \/ exists n, e = XSequence n.
Proof.
  intros X t1 e t2 Q D M S L. destruct (C38_why_requests_fail_partial t X _ _ _ Q) as [(->&_)|[(n&_&->&_)|(->&[(h&m&a&I&O&[B|B])|[(a&B)|[(r&B)|(a&B)]]])]]; eauto.
  - elim (D a B).
  - elim (L h m a I B O).
  - elim (D a B).
  - elim (M r B).
  - elim (S a B).
Qed.

(** The message task fails only when a handshake failed or gave a bad uuid, or a
    call was abandoned. *)
Theorem C55_why_messages_fail_partial (t : list out) : exec t -> forall t1 e t2, t = t1 ++ XMsgEnd E (Some e) :: t2 ->
  (exists a, In (XAuthEnd E a (inr e)) t1) \/ (e = XUuid /\ exists a u, In (XAuthEnd E a (inl u)) t1 /\ x_uuid E u = None)
  \/ (e = XApiChannel /\ exists a, In (XDrop E a) t1).
Proof.
  intros X t1 e t2 Q. destruct (at_msgend E t X _ _ _ Q) as (_&_&A). destruct e; auto.
  - destruct A as [A|A]; auto.
  - destruct A as [A|A]; auto.
Qed.

(** So a connection whose application abandons no call fails only for reasons that
    come from outside. *)
Corollary C55_nobody_abandons_partial (t : list out) : exec t -> (forall a, ~ In (XDrop E a) t) ->
  (forall a k, In (XCall E a k) t -> k <> KShutdown E) ->
  forall t1 t2, t = t1 ++ XApiEnd E (Some XApiChannel) :: t2 ->
  (exists r, In (XMsgEnd E r) t1) \/
  exists h m a, in_hand E h m t1 /\ outstanding E a (h_seq h) t1 /\ In (XRet E a (RErr E XTimeout)) t1.
Proof.
  intros X D S t1 t2 Q.
  assert (In1 : forall o, In o t1 -> In o t) by (intros o J; rewrite Q; apply in_app_iff; auto).
  destruct (C38_why_requests_fail_partial t X _ _ _ Q) as [(?&_)|[(n&_&?&_)|(_&[(h&m&a&I&O&[B|B])|[(a&B)|[B|(a&B)]]])]]; try discriminate.
  - elim (D a (In1 _ B)).
  - right. eauto 6.
  - elim (D a (In1 _ B)).
  - left. exact B.
  - elim (S _ _ (In1 _ B)). reflexivity.
Qed.

(** * C56: reconnecting *)

(** After a [shutdown] that was confirmed there is no further connection, nor after
    one that ended with an error. *)
Theorem C56_no_reconnection (reconnect : bool) (ts : list (list out)) : lives E reconnect ts ->
  forall ts1 t ts2, ts = ts1 ++ t :: ts2 -> 
  (exists a, In (XCall E a (KShutdown E)) t /\ In (XRet E a (RDone E)) t) \/ (exists b e, In (XOver E b (Some e)) t) ->
  ts2 = [].
Proof.
  intros L. induction L as [t0 X|t0 ts X O R L IH]; intros ts1 t ts2 Q H.
  - destruct ts1 as [|? [|? ?]]; try discriminate. injection Q as _ <-. reflexivity.
  - destruct ts1 as [|y ts1]; cbn in Q; [|injection Q as _ Q; eapply IH; eauto]. injection Q as -> <-. exfalso.
    assert (OV : forall b r, In (XOver E b r) t -> b = false /\ r = None).
    { intros b r J. enough (XOver E b r = XOver E false None) as [= -> ->] by auto.
      apply (fresh_split (fun o => exists b r, o = XOver E b r) t); eauto.
      intros t1 x t2 Q (b0&r0&->) z K (b1&r1&->). destruct (at_over E t X _ _ _ _ Q) as (N&_). exact (N _ _ K). }
    destruct H as [(a&C&D)|(b&e&J)]; [|destruct (OV _ _ J); discriminate].
    destruct (in_split _ _ D) as (t1&t2&Q). destruct (at_ret E t X _ _ _ _ Q) as ((k&C'&R')&_).
    assert (k = KShutdown E) as -> by (eapply (call_unique t a); eauto; rewrite Q; apply in_app_iff; auto).
    cbn in R'. destruct R' as [(?&?&?&?&?&_)|(_&e&J)]; [discriminate|].
    destruct (OV true e); [rewrite Q; apply in_app_iff; auto|discriminate].
Qed.

(** * C57: numbering *)

(** A number is used twice only if two handshakes were under way at once, or if a
    request has been unanswered while all the numbers were handed out.  Missing:
    neither can be excluded (see the refutations). *)
Theorem C57_numbering_partial (t : list out) : exec t -> forall t1 n t2, t = t1 ++ XApiEnd E (Some (XSequence n)) :: t2 ->
  exists a, outstanding E a n t1 /\
  ((exists b, a <> b /\ In (XSpawn E a) t1 /\ In (XSpawn E b) t1) \/
   ((4294967284 < N.of_nat (numbers t1))%N /\ In (XSeqNo E a n) t1)).
Proof.
  intros X t1 n t2 Q. destruct (at_apiend E t X _ _ _ Q) as (_&a&b&p&O&PB&UB). exists a.
  pose proof (owner_sound E n t1 a O) as OS. split; [exact OS|]. destruct OS as (l1&l2&pa&L&_).
  assert (QA : t = l1 ++ XSend E a n pa true :: (l2 ++ XApiEnd E (Some (XSequence n)) :: t2)) by (rewrite Q, L, <- app_assoc; reflexivity).
  destruct (at_send E t X _ _ _ _ _ _ QA) as (PA&_).
  assert (AB : a <> b).
  { intros ->. destruct UB as [UB _]. apply (UB pa true). rewrite L. apply in_elt. }
  assert (In1 : forall o, In o l1 -> In o t1) by (intros o J; rewrite L; apply in_app_iff; auto).
  assert (In_t : forall o, In o t1 -> In o t) by (intros o J; rewrite Q; apply in_app_iff; auto).
  assert (CA : (n < 10)%N /\ In (XSpawn E a) t1 \/ In (XSeqNo E a n) t1).
  { destruct pa; cbn in PA; [destruct PA as [-> ?]|destruct PA as (->&?&_)|destruct PA as (?&_)]; auto; left; split; auto; lia. }
  assert (CB : (n < 10)%N /\ In (XSpawn E b) t1 \/ In (XSeqNo E b n) t1).
  { destruct p; cbn in PB; [destruct PB as [-> ?]|destruct PB as (->&?&_)|destruct PB as (?&_)]; auto; left; split; auto; lia. }
  destruct (C37_numbers t X) as (RG&_).
  destruct CA as [[LT SA]|SA]; destruct CB as [[LT' SB]|SB].
  - left. eauto.
  - destruct (RG _ _ (In_t _ SB)). lia.
  - destruct (RG _ _ (In_t _ SA)). lia.
  - right. split; [|exact SA]. destruct (in_split _ _ SA) as (u1&u2&U). rewrite U in SB. apply in_app_iff in SB.
    assert (NL : forall x y : list out, numbers (x ++ y) = (numbers x + numbers y)%nat)
      by (intros x y; unfold numbers; rewrite filter_app, app_length; reflexivity).
    assert (NC : forall c k (x : list out), numbers (XSeqNo E c k :: x) = S (numbers x)) by reflexivity.
    destruct SB as [SB|[SB|SB]]; [|congruence|].
    + destruct (in_split _ _ SB) as (v1&v2&->). assert (Q2 : t = v1 ++ XSeqNo E b n :: v2 ++ XSeqNo E a n :: (u2 ++ XApiEnd E (Some (XSequence n)) :: t2)).
      { rewrite Q, U. repeat (rewrite <- ?app_assoc; cbn [app]). reflexivity. }
      pose proof (C37_reuse t X _ _ _ _ _ _ Q2) as RU. rewrite U. repeat (rewrite ?NL, ?NC). lia.
    + destruct (in_split _ _ SB) as (v1&v2&->). assert (Q2 : t = u1 ++ XSeqNo E a n :: v1 ++ XSeqNo E b n :: (v2 ++ XApiEnd E (Some (XSequence n)) :: t2)).
      { rewrite Q, U. repeat (rewrite <- ?app_assoc; cbn [app]). reflexivity. }
      pose proof (C37_reuse t X _ _ _ _ _ _ Q2) as RU. rewrite U. repeat (rewrite ?NL, ?NC). lia.
Qed.

End Props.

(** * Examples and refutations

    A concrete consumer: message 1 is the producer's confirmation, 2 the answer to
    the self key, 3 to the hashes, 4 to a beacon, 10 and 11 the alternatives of
    request 0, 20 a declared broadcast, 30 a message the workflow does not declare
    as a broadcast. *)
Open Scope N_scope.

Definition demo : cenv := {|
  x_msg := N * bytes; x_user := N;
  x_get := fun id b => if existsb (N.eqb id) [1; 2; 3; 4; 10; 11; 20; 30] then Ok (id, b) else Err EUnknownMsg;
  x_sig := 5;
  x_confirm := fun m => fst m =? 1;
  x_self := fun m => if fst m =? 2 then Some (snd m) else None;
  x_hash := fun m => if fst m =? 3 then Some (match snd m with [] => None | b => Some b end) else None;
  x_beacon := fun m => if fst m =? 4 then Some (match snd m with [] => None | b => Some b end) else None;
  x_answer := fun r m => if fst m =? 10 then Some 0%nat else if fst m =? 11 then Some 1%nat else None;
  x_broadcast := fun m => if fst m =? 20 then Some 0%nat else None;
  x_uuid := fun b => match b with [x] => Some (Byte.to_N x) | _ => None end |}.

Definition frame (id seq : N) (body : bytes) : bytes := pack id 5 seq 0 body.

(** A message arrives; it is a confirmation; it is looked up in the requests. *)
Definition confirm : list (label demo) := [LEvent demo (InBinary (frame 1 0 [])); LNext demo; LNext demo].
Definition arrive (id seq : N) (body : bytes) : list (label demo) :=
  [LEvent demo (InBinary (frame id seq body)); LNext demo; LApi demo true].
Definition receive (id seq : N) (body : bytes) : list (label demo) := arrive id seq body ++ [LAnswer demo; LNext demo].
Definition self (a : nat) : list (label demo) := [LAct demo a true; LApi demo true].
Definition shake (a : nat) : list (label demo) :=
  confirm ++ self a ++ receive 2 0 [x07] ++ self a ++ receive 3 1 [] ++ [LAct demo a true; LAuth demo; LEmit demo; LHandled demo].
(** Call [a] asks for its number and the uuid and is sent. *)
Definition send (a : nat) (k : kind demo) : list (label demo) :=
  LCall demo k :: self a ++ self a ++ LAuth demo :: self a.
Definition req (x : N) : kind demo := KReq demo 0 x.
Definition stop : list (label demo) :=
  [LApiCancel demo; LMsgCancel demo; LClientCancel demo; LDone demo; LEmit demo; LHandled demo; LEmit demo; LHandled demo; LOver demo].

Definition trace (ls : list (label demo)) : list (out demo) :=
  match runs demo ls (start demo) with Some (_, t) => t | None => [] end.
Definition possible (ls : list (label demo)) : bool :=
  match runs demo ls (start demo) with Some _ => true | None => false end.
Lemma possible_exec ls : possible ls = true -> exec demo (trace ls).
Proof.
  unfold possible, trace, exec. destruct (runs demo ls (start demo)) as [[s t]|] eqn:R; [|discriminate]. intros _. eauto.
Qed.

Definition out_dec (a b : out demo) : {a = b} + {a <> b}.
Proof.
  assert (Db : forall x y : bytes, {x = y} + {x <> y}) by (apply list_eq_dec, byte_eq_dec).
  assert (Dm : forall x y : N * bytes, {x = y} + {x <> y}) by (decide equality; apply N.eq_dec).
  assert (Dh : forall x y : header, {x = y} + {x <> y}) by (decide equality; apply N.eq_dec).
  assert (De : forall x y : cerr, {x = y} + {x <> y}) by (decide equality; first [apply N.eq_dec|apply Db]).
  assert (Do : forall x y : option cerr, {x = y} + {x <> y}) by (decide equality).
  assert (Dn : forall x y : option N, {x = y} + {x <> y}) by (decide equality; apply N.eq_dec).
  assert (Ds : forall x y : bytes + cerr, {x = y} + {x <> y}) by (decide equality).
  assert (Dp : forall x y : payload demo, {x = y} + {x <> y}) by (decide equality; apply N.eq_dec).
  assert (Dk : forall x y : kind demo, {x = y} + {x <> y}) by (decide equality; first [apply N.eq_dec|apply Nat.eq_dec]).
  assert (Dr : forall x y : cres demo, {x = y} + {x <> y}) by (decide equality; first [apply Dm|apply Nat.eq_dec]).
  assert (Dv : forall x y : cevent demo, {x = y} + {x <> y}) by (decide equality; first [apply Dm|apply Nat.eq_dec]).
  decide equality; first [apply N.eq_dec | apply Nat.eq_dec | apply bool_dec | apply Dm].
Defined.

Definition is (o : out demo) (x : out demo) : bool := if out_dec o x then true else false.
Lemma in_is o l : existsb (is o) l = true -> In o l.
Proof. intros H. apply existsb_exists in H. destruct H as (x&J&K). unfold is in K. destruct (out_dec o x); [subst; exact J|discriminate]. Qed.
Lemma same l k : (if list_eq_dec out_dec l k then true else false) = true -> l = k.
Proof. destruct (list_eq_dec out_dec l k); congruence. Qed.
Lemma none_such (f : out demo -> bool) (l : list (out demo)) o : existsb f l = false -> f o = true -> ~ In o l.
Proof. intros H K J. rewrite (proj2 (existsb_exists f l)) in H; [discriminate|eauto]. Qed.
Ltac here := apply in_is; vm_compute; reflexivity.
Ltac by_run := apply possible_exec; vm_compute; reflexivity.

(** A whole connection: handshake; two requests and a beacon, answered in another
    order; a broadcast; an undeclared message; [shutdown]. *)
Definition session : list (label demo) :=
  shake 0 ++ send 1 (req 100) ++ send 2 (req 200) ++ send 3 (KBeacon demo 0 300)
  ++ receive 11 12 [x05] ++ receive 20 0 [x01] ++ receive 4 13 [] ++ receive 30 0 [] ++ receive 10 11 [x06]
  ++ [LAct demo 2 true; LAct demo 3 true; LAct demo 1 true; LEmit demo; LHandled demo; LEmit demo; LHandled demo;
      LCall demo (KShutdown demo)] ++ self 4 ++ LShut demo :: stop ++ [LAct demo 4 true].

Definition stamp (id seq len : N) : header := mkHeader id 5 seq 0 len.

Example session_trace : exec demo (trace session) /\ trace session =
  [XIn demo (stamp 1 0 0) (1, []); XSpawn demo 0; XSend demo 0 0 (PSelf demo) true;
   XIn demo (stamp 2 0 1) (2, [x07]); XMatch demo 0 0 (2, [x07]); XSend demo 0 1 (PHash demo) true;
   XIn demo (stamp 3 1 0) (3, []); XMatch demo 0 1 (3, []); XAuthEnd demo 0 (inl [x07]);
   XEmit demo (EConnected demo); XEvent demo (EConnected demo);
   XCall demo 1 (req 100); XSeqNo demo 1 11; XSend demo 1 11 (PUser demo 100 (Some 7)) true;
   XCall demo 2 (req 200); XSeqNo demo 2 12; XSend demo 2 12 (PUser demo 200 (Some 7)) true;
   XCall demo 3 (KBeacon demo 0 300); XSeqNo demo 3 13; XSend demo 3 13 (PUser demo 300 (Some 7)) true;
   XIn demo (stamp 11 12 1) (11, [x05]); XMatch demo 2 12 (11, [x05]);
   XIn demo (stamp 20 0 1) (20, [x01]); XEmit demo (EBroadcast demo 0 (20, [x01]));
   XIn demo (stamp 4 13 0) (4, []); XMatch demo 3 13 (4, []);
   XIn demo (stamp 30 0 0) (30, []); XEmit demo (EError demo XUnknown);
   XIn demo (stamp 10 11 1) (10, [x06]); XMatch demo 1 11 (10, [x06]);
   XRet demo 2 (ROk demo 1 (11, [x05])); XRet demo 3 (RDone demo); XRet demo 1 (ROk demo 0 (10, [x06]));
   XEvent demo (EBroadcast demo 0 (20, [x01])); XEvent demo (EError demo XUnknown);
   XCall demo 4 (KShutdown demo); XApiEnd demo None; XMsgEnd demo None;
   XEmit demo (EDisconnected demo); XCliEnd demo None; XEmit demo (EShutdown demo None);
   XEvent demo (EDisconnected demo); XEvent demo (EShutdown demo None); XOver demo true None; XRet demo 4 (RDone demo)].
Proof. split; [by_run|apply same; vm_compute; reflexivity]. Qed.

(** ** C36 *)
Example C36_response_carries_number_example : exec demo (trace session) /\
  exists t1 t2, trace session = t1 ++ XMatch demo 2 12 (11, [x05]) :: t2.
Proof. split; [by_run|]. apply in_split. here. Qed.
Example C36_request_answered_example : exec demo (trace session) /\
  exists t1 t2, trace session = t1 ++ XRet demo 1 (ROk demo 0 (10, [x06])) :: t2.
Proof. split; [by_run|]. apply in_split. here. Qed.
Example C36_at_most_once_example : exec demo (trace session) /\ In (XCall demo 3 (KBeacon demo 0 300)) (trace session).
Proof. split; [by_run|here]. Qed.

(** ** C50 *)

(** A request times out, a second one gets an answer it does not know, a beacon is
    refused, a third request cannot be packed. *)
Definition failures : list (label demo) :=
  shake 0 ++ send 1 (req 100) ++ send 2 (req 200) ++ send 3 (KBeacon demo 0 300)
  ++ receive 30 12 [] ++ receive 4 13 [x41] ++ [LTimeout demo 1; LAct demo 2 true; LAct demo 3 true; LCall demo (req 400)]
  ++ self 4 ++ self 4 ++ [LAuth demo; LAct demo 4 false].
Example C50_results_explained_example : exec demo (trace failures) /\
  (exists t1 t2, trace failures = t1 ++ XRet demo 1 (RErr demo XTimeout) :: t2) /\
  (exists t1 t2, trace failures = t1 ++ XRet demo 2 (RErr demo XUnexpected) :: t2) /\
  (exists t1 t2, trace failures = t1 ++ XRet demo 3 (RErr demo (XBroadcast [x41])) :: t2) /\
  (exists t1 t2, trace failures = t1 ++ XRet demo 4 (RErr demo XProtocol) :: t2).
Proof. split; [by_run|]. repeat split; apply in_split; here. Qed.

(** ** C37 *)
Example C37_numbers_example : exec demo (trace session) /\
  In (XSeqNo demo 1 11) (trace session) /\ In (XSend demo 1 11 (PUser demo 100 (Some 7)) true) (trace session).
Proof. split; [by_run|split; here]. Qed.
Example C37_outstanding_distinct_example : exec demo (trace session) /\
  exists t1 t2, trace session = t1 ++ t2 /\ outstanding demo 1 11 t1 /\ outstanding demo 2 12 t1.
Proof.
  split; [by_run|]. exists (firstn 20 (trace session)), (skipn 20 (trace session)). split; [symmetry; apply firstn_skipn|split].
  - exists (firstn 13 (trace session)), (firstn 6 (skipn 14 (trace session))), (PUser demo 100 (Some 7)).
    split; [apply same; vm_compute; reflexivity|]. intros a m.
    apply (none_such (fun o => match o with XMatch _ _ _ _ => true | _ => false end)); vm_compute; reflexivity.
  - exists (firstn 16 (trace session)), (firstn 3 (skipn 17 (trace session))), (PUser demo 200 (Some 7)).
    split; [apply same; vm_compute; reflexivity|]. intros a m.
    apply (none_such (fun o => match o with XMatch _ _ _ _ => true | _ => false end)); vm_compute; reflexivity.
Qed.

(** ** C51 *)
Example C51_fate_example : exec demo (trace session) /\
  trace session = firstn 22 (trace session) ++ XIn demo (stamp 20 0 1) (20, [x01]) ::
    [XEmit demo (EBroadcast demo 0 (20, [x01]))] ++ XIn demo (stamp 4 13 0) (4, []) :: skipn 25 (trace session).
Proof. split; [by_run|]. apply same. vm_compute. reflexivity. Qed.

(** ** C39 *)
Example C39_no_call_takes_a_broadcast_example : exec demo (trace session) /\
  exists t1 t2, trace session = t1 ++ XMatch demo 0 0 (2, [x07]) :: t2.
Proof. split; [by_run|]. apply in_split. here. Qed.

Example C39_broadcast_delivered_example : exec demo (trace session) /\
  trace session = firstn 22 (trace session) ++ XIn demo (stamp 20 0 1) (20, [x01]) ::
    [XEmit demo (EBroadcast demo 0 (20, [x01]))] ++ XIn demo (stamp 4 13 0) (4, []) :: skipn 25 (trace session)
  /\ forall a u1 u2, [XEmit demo (EBroadcast demo 0 (20, [x01]))] = u1 ++ u2 ->
       ~ outstanding demo a 0 (firstn 22 (trace session) ++ XIn demo (stamp 20 0 1) (20, [x01]) :: u1).
Proof.
  assert (X : exec demo (trace session)) by by_run.
  assert (Q0 : trace session = (firstn 22 (trace session) ++ [XIn demo (stamp 20 0 1) (20, [x01])]) ++ skipn 23 (trace session))
    by (apply same; vm_compute; reflexivity).
  assert (Q1 : trace session = (firstn 22 (trace session) ++ [XIn demo (stamp 20 0 1) (20, [x01]); XEmit demo (EBroadcast demo 0 (20, [x01]))])
    ++ skipn 24 (trace session)) by (apply same; vm_compute; reflexivity).
  assert (O0 : owner demo 0 (firstn 22 (trace session) ++ [XIn demo (stamp 20 0 1) (20, [x01])]) = None) by (vm_compute; reflexivity).
  assert (O1 : owner demo 0 (firstn 22 (trace session) ++ [XIn demo (stamp 20 0 1) (20, [x01]); XEmit demo (EBroadcast demo 0 (20, [x01]))]) = None)
    by (vm_compute; reflexivity).
  split; [exact X|]. split; [apply same; vm_compute; reflexivity|]. generalize dependent (trace session). intros tr X Q0 Q1 O0 O1 a u1 u2 Q O.
  destruct u1 as [|y [|z u1]]; [| |discriminate].
  - rewrite (owner_complete demo tr X _ _ _ _ Q0 O) in O0. discriminate.
  - injection Q as <- _. rewrite (owner_complete demo tr X _ _ _ _ Q1 O) in O1. discriminate.
Qed.

(** A broadcast that arrives while the handshake waits for the answer to the self
    key is taken for this answer: the handshake fails, the broadcast is lost and
    the connection ends. *)
Definition early_broadcast : list (label demo) :=
  confirm ++ self 0 ++ receive 20 0 [x01] ++ [LAct demo 0 true; LAuth demo] ++ [LApiCancel demo; LClientCancel demo; LShutCancel demo; LDone demo;
    LEmit demo; LHandled demo; LEmit demo; LHandled demo; LEmit demo; LHandled demo; LOver demo].
Theorem C39_broadcast_delivered_refuted :
  exists (t : list (out demo)) l1 h m b a l2, exec demo t /\ t = l1 ++ XIn demo h m :: XMatch demo a 0 m :: l2 /\ h_seq h = 0
    /\ x_broadcast demo m = Some b /\ ~ In (XEmit demo (EBroadcast demo b m)) t
    /\ In (XMsgEnd demo (Some XHandshake)) l2 /\ In (XOver demo false (Some XHandshake)) l2.
Proof.
  exists (trace early_broadcast), (firstn 3 (trace early_broadcast)), (stamp 20 0 1), (20, [x01]), 0%nat, 0%nat, (skipn 5 (trace early_broadcast)).
  split; [by_run|]. split; [apply same; vm_compute; reflexivity|]. split; [reflexivity|]. split; [reflexivity|]. split.
  - apply (none_such (fun o => match o with XEmit _ (EBroadcast _ _ _) => true | _ => false end)); vm_compute; reflexivity.
  - split; here.
Qed.

(** ** C40 *)
Example C40_connected_after_handshake_example : exec demo (trace session) /\
  exists t1 t2, trace session = t1 ++ XEmit demo (EConnected demo) :: t2.
Proof. split; [by_run|]. apply in_split. here. Qed.
Example C40_uuid_from_handshake_example : exec demo (trace session) /\
  exists t1 t2, trace session = t1 ++ XSend demo 1 11 (PUser demo 100 (Some 7)) true :: t2.
Proof. split; [by_run|]. apply in_split. here. Qed.

(** A call made before the handshake is complete is sent all the same, with an
    empty uuid: it does not wait. *)
Definition early_call : list (label demo) := confirm ++ self 0 ++ send 1 (req 100).
Theorem C40_calls_wait_refuted : exists t : list (out demo), exec demo t /\
  In (XSend demo 1 11 (PUser demo 100 None) true) t /\ forall a r, ~ In (XAuthEnd demo a r) t.
Proof.
  exists (trace early_call). split; [by_run|]. split; [here|]. intros a r.
  apply (none_such (fun o => match o with XAuthEnd _ _ _ => true | _ => false end)); vm_compute; reflexivity.
Qed.

(** ** C52 *)
Example C52_events_in_order_example : exec demo (trace session) /\ In (XOver demo true None) (trace session) /\
  seen demo (trace session) = [EConnected demo; EBroadcast demo 0 (20, [x01]); EError demo XUnknown; EDisconnected demo; EShutdown demo None].
Proof. split; [by_run|]. split; [here|]. vm_compute. reflexivity. Qed.

(** ** C53 *)
Example C53_over_example : exec demo (trace session) /\ exists t1 t2, trace session = t1 ++ XOver demo true None :: t2 /\ t2 <> [].
Proof.
  split; [by_run|]. exists (firstn 43 (trace session)), (skipn 44 (trace session)). split; [|vm_compute; discriminate].
  apply same. vm_compute. reflexivity.
Qed.

Definition state (ls : list (label demo)) : st demo :=
  match runs demo ls (start demo) with Some (s, _) => s | None => start demo end.
Lemma possible_runs ls : possible ls = true -> runs demo ls (start demo) = Some (state ls, trace ls).
Proof. unfold possible, state, trace. destruct (runs demo ls (start demo)) as [[s t]|]; [reflexivity|discriminate]. Qed.

(** the transport closes the connection under a waiting request *)
Definition cut : list (label demo) := shake 0 ++ send 1 (req 100) ++ [LClient demo true; LShutCancel demo; LApiCancel demo; LMsgCancel demo; LDone demo;
    LEmit demo; LHandled demo; LEmit demo; LHandled demo; LOver demo].
Example C53_calls_end_example : runs demo cut (start demo) = Some (state cut, trace cut) /\ s_over demo (state cut) = true /\
  act demo 1 (s_acts demo (state cut)) = Some (req 100, WResp demo 11).
Proof. split; [apply possible_runs; vm_compute; reflexivity|]. split; vm_compute; reflexivity. Qed.

(** ** C54 *)
Definition cancelled : list (label demo) := shake 0 ++ send 1 (req 100) ++ [LEvent demo (InBinary (frame 20 0 [])); LCancel demo].
Example C54_can_stop_example : runs demo cancelled (start demo) = Some (state cancelled, trace cancelled) /\
  s_cancel demo (state cancelled) = true /\ s_over demo (state cancelled) = false /\ s_hand demo (state cancelled) = None.
Proof. split; [apply possible_runs; vm_compute; reflexivity|]. repeat split; vm_compute; reflexivity. Qed.

(** A handler that awaits [consumer.shutdown()]: the connection waits for the
    handler, the handler for the connection.  Whatever happens next (unless the
    handler gives the call up), the connection does not end and [shutdown] does
    not return. *)
Definition deadlock : list (label demo) := 
  shake 0 ++ receive 20 0 [] ++ [LEmit demo; LCall demo (KShutdown demo); LAwait demo 1] ++ self 1 ++ [LShut demo].
Lemma reached_by ls s t : runs demo ls (start demo) = Some (s, t) -> reached demo s.
Proof. intros R. exists t. exact (runs_inv demo ls _ [] s t (start_inv demo) R). Qed.
Theorem C54_can_stop_refuted : exists ls s t, runs demo ls (start demo) = Some (s, t) /\ s_cancel demo s = true /\
  In (XCall demo 1 (KShutdown demo)) t /\
  forall ls' s' t', runs demo ls' s = Some (s', t') -> ~ In (LDrop demo 1) ls' ->
    ~ In (XOver demo false (Some XPanic)) t' -> s_over demo s' = false.
Proof.
  exists deadlock, (state deadlock), (trace deadlock).
  assert (R : runs demo deadlock (start demo) = Some (state deadlock, trace deadlock)) by (apply possible_runs; vm_compute; reflexivity).
  split; [exact R|]. split; [vm_compute; reflexivity|]. split; [here|].
  assert (H : s_hand demo (state deadlock) = Some (Some 1%nat)) by (vm_compute; reflexivity).
  assert (S : s_shut demo (state deadlock) = ShGot 1) by (vm_compute; reflexivity).
  assert (A : act demo 1 (s_acts demo (state deadlock)) = Some (KShutdown demo, WStop demo)) by (vm_compute; reflexivity).
  assert (O : s_over demo (state deadlock) = false) by (vm_compute; reflexivity).
  intros ls' s' t' R' ND NP. exact (stuck_forever demo 1 (KShutdown demo) ls' _ s' t' (reached_by _ _ _ R) H S A O R' ND NP).
Qed.

(** ** C38 *)

(** A request times out, and its response arrives late: the connection breaks and
    another request fails with it.  Nobody abandoned a call or asked for a
    shutdown, and the transport did nothing wrong. *)
Definition late : list (label demo) :=
  shake 0 ++ send 1 (req 100) ++ send 2 (req 200) ++ [LTimeout demo 1] ++ arrive 10 11 [] ++ [LAct demo 2 true].
Theorem C38_late_response_refuted : exists (t : list (out demo)) t1 t2 h m,
  exec demo t /\ t = t1 ++ XRet demo 1 (RErr demo XTimeout) :: XIn demo h m :: XApiEnd demo (Some XApiChannel) :: t2
  /\ In (XSend demo 1 (h_seq h) (PUser demo 100 (Some 7)) true) t1 /\ In (XCall demo 2 (req 200)) t1
  /\ In (XRet demo 2 (RErr demo XGetting)) t2
  /\ (forall a, ~ In (XDrop demo a) t) /\ (forall a, ~ In (XCall demo a (KShutdown demo)) t)
  /\ (forall a n p, ~ In (XSend demo a n p false) t) /\ (forall r, ~ In (XCliEnd demo r) t) /\ ~ In (XCancel demo) t.
Proof.
  exists (trace late), (firstn 17 (trace late)), (skipn 20 (trace late)), (stamp 10 11 0), (10, []).
  split; [by_run|]. split; [apply same; vm_compute; reflexivity|]. split; [here|]. split; [here|]. split; [here|].
  repeat split; intros;
   apply (none_such (fun o => match o with XDrop _ _ | XCall _ _ (KShutdown _) | XSend _ _ _ _ false | XCliEnd _ _ | XCancel _ => true | _ => false end));
   vm_compute; reflexivity.
Qed.
Example C38_why_requests_fail_example : exec demo (trace late) /\ exists t1 t2, trace late = t1 ++ XApiEnd demo (Some XApiChannel) :: t2.
Proof. split; [by_run|]. apply in_split. here. Qed.

(** a timeout without a late response; then the transport refuses a message *)
Definition refused : list (label demo) :=
  shake 0 ++ send 1 (req 100) ++ [LTimeout demo 1; LCall demo (req 200)] ++ self 2 ++ self 2 ++ [LAuth demo; LAct demo 2 true; LApi demo false].
Example C38_timeouts_alone_example : exec demo (trace refused) /\
  In (XRet demo 1 (RErr demo XTimeout)) (trace refused) /\ exists t1 t2, trace refused = t1 ++ XApiEnd demo (Some XClientChannel) :: t2 /\
  (forall a, ~ In (XDrop demo a) t1) /\ (forall r, ~ In (XMsgEnd demo r) t1) /\ (forall a, ~ In (XCall demo a (KShutdown demo)) t1) /\
  (forall h m a, in_hand demo h m t1 -> ~ outstanding demo a (h_seq h) t1).
Proof.
  split; [by_run|]. split; [here|]. exists (firstn 18 (trace refused)), (skipn 19 (trace refused)).
  split; [apply same; vm_compute; reflexivity|]. split; [|split; [|split]].
  1-3: intros; apply (none_such (fun o => match o with XDrop _ _ | XCall _ _ (KShutdown _) | XMsgEnd _ _ => true | _ => false end)); vm_compute; reflexivity.
  assert (X : exec demo (trace refused)) by by_run.
  assert (Q : trace refused = firstn 18 (trace refused) ++ skipn 18 (trace refused)) by (symmetry; apply firstn_skipn).
  assert (C : cur demo (firstn 18 (trace refused)) = None) by (vm_compute; reflexivity).
  generalize dependent (trace refused). intros tr X Q C h m a H. rewrite (cur_complete demo tr _ _ h m Q H) in C. discriminate.
Qed.

(** ** C55 *)

(** The application abandons a call that waits for its number (a [select!] with a
    timer, say): the connection breaks, another request fails with it. *)
Definition abandoned : list (label demo) :=
  shake 0 ++ send 1 (req 100) ++ [LCall demo (req 200); LAct demo 2 true; LDrop demo 2; LApi demo true; LAct demo 1 true].
Theorem C55_abandoning_refuted : exists (t : list (out demo)) t1 t2, exec demo t /\
  t = t1 ++ XDrop demo 2 :: XApiEnd demo (Some XApiChannel) :: t2 /\ In (XCall demo 1 (req 100)) t1 /\ In (XRet demo 1 (RErr demo XGetting)) t2
  /\ (forall a, ~ In (XCall demo a (KShutdown demo)) t)
  /\ (forall a n p, ~ In (XSend demo a n p false) t) /\ (forall r, ~ In (XCliEnd demo r) t) /\ ~ In (XCancel demo) t.
Proof.
  exists (trace abandoned), (firstn 15 (trace abandoned)), (skipn 17 (trace abandoned)).
  split; [by_run|]. split; [apply same; vm_compute; reflexivity|]. split; [here|]. split; [here|].
  repeat split; intros;
   apply (none_such (fun o => match o with XCall _ _ (KShutdown _) | XSend _ _ _ _ false | XCliEnd _ _ | XCancel _ => true | _ => false end));
   vm_compute; reflexivity.
Qed.
(** the same while it waits for the uuid: the other task fails *)
Definition abandoned2 : list (label demo) :=
  shake 0 ++ [LCall demo (req 200)] ++ self 1 ++ self 1 ++ [LDrop demo 1; LAuth demo].
Example C55_why_messages_fail_example : exec demo (trace abandoned2) /\
  exists t1 t2, trace abandoned2 = t1 ++ XMsgEnd demo (Some XApiChannel) :: t2.
Proof. split; [by_run|]. apply in_split. here. Qed.
Example C55_nobody_abandons_example : exec demo (trace late) /\ (forall a, ~ In (XDrop demo a) (trace late)) /\
  (forall a k, In (XCall demo a k) (trace late) -> k <> KShutdown demo) /\
  exists t1 t2, trace late = t1 ++ XApiEnd demo (Some XApiChannel) :: t2.
Proof.
  split; [by_run|]. split; [|split; [|apply in_split; here]].
  - intros a. apply (none_such (fun o => match o with XDrop _ _ => true | _ => false end)); vm_compute; reflexivity.
  - intros a k J ->.
    assert (B : existsb (fun o : out demo => match o with XCall _ _ (KShutdown _) => true | _ => false end) (trace late) = false) by (vm_compute; reflexivity).
    exact (none_such _ _ (XCall demo a (KShutdown demo)) B eq_refl J).
Qed.

(** ** C56 *)
Example C56_no_reconnection_example : lives demo true [trace cut; trace session] /\
  In (XCall demo 4 (KShutdown demo)) (trace session) /\ In (XRet demo 4 (RDone demo)) (trace session).
Proof.
  split; [|split; here]. apply live_again; [by_run|here|reflexivity|]. apply live_last. by_run.
Qed.

(** With [ReconnectionStrategy::Reconnect], a connection that breaks with an error
    of the transport is not renewed; nor one broken by a late response. *)
Definition broken : list (label demo) := shake 0 ++ [LClient demo false; LShutCancel demo; LApiCancel demo; LMsgCancel demo; LDone demo;
    LEmit demo; LHandled demo; LEmit demo; LHandled demo; LEmit demo; LHandled demo; LOver demo].
Definition broken_late : list (label demo) := late ++ [LAnswer demo; LNext demo; LMsgCancel demo; LClientCancel demo; LShutCancel demo; LDone demo;
    LEmit demo; LHandled demo; LEmit demo; LHandled demo; LEmit demo; LHandled demo; LEmit demo; LHandled demo; LOver demo].
Theorem C56_reconnects_refuted :
  (exists t, exec demo t /\ In (XCliEnd demo (Some XClient)) t /\ (forall a, ~ In (XCall demo a (KShutdown demo)) t) /\
    forall ts, lives demo true (t :: ts) -> ts = []) /\
  (exists t, exec demo t /\ In (XRet demo 1 (RErr demo XTimeout)) t /\ In (XOver demo false (Some XApiChannel)) t /\
    (forall a, ~ In (XCall demo a (KShutdown demo)) t) /\ (forall a, ~ In (XDrop demo a) t) /\
    forall ts, lives demo true (t :: ts) -> ts = []).
Proof.
  assert (NS : forall t, existsb (fun o : out demo => match o with XCall _ _ (KShutdown _) | XDrop _ _ => true | _ => false end) t = false ->
    (forall a, ~ In (XCall demo a (KShutdown demo)) t) /\ forall a, ~ In (XDrop demo a) t).
  { intros t H. split; intros a; eapply none_such; try exact H; reflexivity. }
  split.
  - exists (trace broken). split; [by_run|]. split; [here|].
    destruct (NS (trace broken)) as [N1 _]; [vm_compute; reflexivity|]. split.
    + exact N1.
    + intros ts L. eapply (C56_no_reconnection demo true _ L []); [reflexivity|right; exists false, XClient; here].
  - exists (trace broken_late). split; [by_run|]. split; [here|]. split; [here|].
    destruct (NS (trace broken_late)) as [N1 N2]; [vm_compute; reflexivity|]. split; [|split].
    + exact N1.
    + exact N2.
    + intros ts L. eapply (C56_no_reconnection demo true _ L []); [reflexivity|right; exists false, XApiChannel; here].
Qed.

(** ** C57 *)

(** The producer confirms twice: the second handshake uses number 0 while the first
    waits for its answer, and the connection breaks. *)
Definition twice : list (label demo) := confirm ++ confirm ++ self 0 ++ self 1.
Theorem C57_second_confirmation_refuted : exists t : list (out demo), exec demo t /\
  exists t1, t = t1 ++ [XApiEnd demo (Some (XSequence 0))] /\ forall a, ~ In (XDrop demo a) t.
Proof.
  exists (trace twice). split; [by_run|]. exists (firstn 5 (trace twice)). split; [apply same; vm_compute; reflexivity|].
  intros a. apply (none_such (fun o => match o with XDrop _ _ => true | _ => false end)); vm_compute; reflexivity.
Qed.
Example C57_numbering_example : exec demo (trace twice) /\ exists t1 t2, trace twice = t1 ++ XApiEnd demo (Some (XSequence 0)) :: t2.
Proof. split; [by_run|]. apply in_split. here. Qed.

(** A beacon that is never answered (beacons have no timeout), and then requests
    that are all answered: when the numbers start again, the beacon's is taken
    once more and the connection breaks. *)
Definition beacon : kind demo := KBeacon demo 0 300.
Definition base (c : nat) (n : N) : st demo :=
  mkSt demo c [(1%nat, (beacon, WResp demo 11))] None [(11, 1%nat)] n [] (MIdle demo) (mkBuf [] []) (Some 7) [] None false [] ShWait [] None false false.
Definition round (c : nat) (n : N) : list (label demo) := send c (req 0) ++ receive 10 n [] ++ [LAct demo c true].

Lemma chunk_one n : n < 2 ^ 32 ->
  chunk (x_get demo) (x_sig demo) (mkBuf [] []) (frame 10 n []) = (COk, mkBuf [] [(stamp 10 n 0, (10, []))]).
Proof.
  intros L. pose (p := mkPacket 10 5 n 0 []).
  assert (G : good (x_get demo) (x_sig demo) p) by (split; [reflexivity|exists (10, []); reflexivity]).
  destruct (chunk_spec (x_get demo) (x_sig demo) [p] [] [] (frame 10 n []) [] []) as (o&b&q&j&C&J&B&Q&NP&R).
  - constructor; [|constructor]. repeat split; cbn; try lia.
  - constructor; [|constructor]. intros _. cbn. discriminate.
  - left. reflexivity.
  - cbn [app stream flat_map]. rewrite !app_nil_r. reflexivity.
  - rewrite C. destruct j as [|[|j]]; [| |cbn in J; lia].
    + exfalso. destruct R as [(_&_&R)|(_&R)]; [|cbn in R; discriminate].
      cbn [skipn at_rest] in R. cbn [skipn stream flat_map] in B. rewrite !app_nil_r in B. subst b. lia.
    + destruct R as [(->&_)|(_&R)].
      * cbn [skipn stream flat_map] in B. rewrite !app_nil_r in B. subst b q. reflexivity.
      * exfalso. revert R. cbn [firstn]. unfold count_bad. cbn [filter]. rewrite (good_badb _ _ p G). discriminate.
Qed.

Definition peaceful (o : out demo) : bool :=
  match o with
  | XDrop _ _ | XRet _ _ (RErr _ _) | XCall _ _ (KShutdown _) | XSend _ _ _ _ false | XCancel _ | XApiEnd _ _ | XMsgEnd _ _ | XCliEnd _ _ | XOver _ _ _ => false
  | _ => true
  end.

Lemma run_step l ls (s s1 s2 : st demo) t1 t2 : fire demo l s = Some (s1, t1) -> runs demo ls s1 = Some (s2, t2) ->
  runs demo (l :: ls) s = Some (s2, t1 ++ t2).
Proof. intros F R. cbn [runs]. rewrite F, R. reflexivity. Qed.

Opaque chunk frame next_seq.
Ltac norm := repeat (progress (cbv beta iota zeta delta [s_next s_acts s_api s_pend s_seq s_q s_msg s_buf s_uuid s_qauth s_cli s_cancel s_qshut s_shut s_emit s_hand s_done s_over add_act set_acts set_api set_msg set_cli set_shut set_emit push_q set_mstate set_qauth go gone put_act del_act act pfind pdel api_up msg_up app rb_buf rb_queue]; rewrite ?Nat.eqb_refl, ?N.eqb_refl; cbn iota)).
Ltac compute_step := repeat (progress (cbv beta iota zeta delta [s_next s_acts s_api s_pend s_seq s_q s_msg s_buf s_uuid s_qauth s_cli s_cancel s_qshut s_shut s_emit s_hand s_done s_over add_act set_acts set_api set_msg set_cli set_shut set_emit push_q set_mstate set_qauth go gone put_act del_act act pfind pdel api_up msg_up List.app rb_buf rb_queue fire run_act ask request fails return_ end_api end_msg api_cmd client_event next_msg next auth_msg user_kind req fst snd h_seq stamp]; rewrite ?Nat.eqb_refl, ?N.eqb_refl; cbn iota)).
Lemma round_ok c n m : next_seq n = m -> m <> 11 -> m < 2 ^ 32 ->
  exists t, runs demo (round c m) (base c n) = Some (base (S c) m, t) /\ forallb peaceful t = true.
Proof.
  intros N D L. unfold round, send, receive, arrive, self. cbn [app]. eexists.
  assert (D' : (m =? 11) = false) by (apply N.eqb_neq; exact D).
  pose proof (chunk_one m L) as C. assert (C1 : x_confirm demo (10, []) = false) by reflexivity.
  assert (C2 : x_answer demo 0 (10, []) = Some 0%nat) by reflexivity. unfold base. split.
  - do 14 (eapply run_step; [compute_step; rewrite ?N, ?D', ?C, ?C2; compute_step; rewrite ?C1; compute_step; reflexivity|norm]).
    reflexivity.
  - reflexivity.
Qed.
Lemma collision c : exists s, runs demo (send c (req 0)) (base c 10) =
  Some (s, [XCall demo c (req 0); XSeqNo demo c 11] ++ [XApiEnd demo (Some (XSequence 11))]).
Proof.
  assert (NS : next_seq 10 = 11) by reflexivity. unfold send, self, base. cbn [app].
  enough (R : exists s t, t = [XCall demo c (req 0); XSeqNo demo c 11; XApiEnd demo (Some (XSequence 11))] /\ runs demo
    [LCall demo (req 0); LAct demo c true; LApi demo true; LAct demo c true; LApi demo true; LAuth demo; LAct demo c true; LApi demo true]
    (base c 10) = Some (s, t)) by (destruct R as (s&t&->&R); exists s; exact R).
  eexists. eexists. split; cycle 1. { unfold base. do 8 (eapply run_step; [compute_step; rewrite ?NS; compute_step; reflexivity|norm]). reflexivity. } reflexivity.
Qed.
Transparent chunk frame next_seq.

Lemma rounds_ok k : forall c, 11 + N.of_nat k <= 4294967293 ->
  exists ls c' t, runs demo ls (base c 11) = Some (base c' (11 + N.of_nat k), t) /\ forallb peaceful t = true.
Proof.
  induction k as [|k IH]; intros c L.
  - exists [], c, []. split; reflexivity.
  - destruct (IH c) as (ls&c'&t&R&P); [lia|].
    assert (NS : next_seq (11 + N.of_nat k) = 11 + N.of_nat (S k)).
    { unfold next_seq, u32_max. destruct (N.leb_spec (4294967295 - 1) (11 + N.of_nat k + 1)); lia. }
    destruct (round_ok c' _ _ NS) as (t'&R'&P'); [lia|change (2 ^ 32) with 4294967296; lia|].
    exists (ls ++ round c' (11 + N.of_nat (S k))), (S c'), (t ++ t'). split.
    + rewrite (runs_app demo _ _ _ _ _ R), R'. reflexivity.
    + rewrite forallb_app, P, P'. reflexivity.
Qed.

Theorem C57_wrap_around_refuted : exists t t1 : list (out demo), exec demo t /\ t = t1 ++ [XApiEnd demo (Some (XSequence 11))] /\
  forallb peaceful t1 = true /\ exists u1 u2 b, t1 = u1 ++ XSeqNo demo 1 11 :: u2 ++ [XSeqNo demo b 11].
Proof.
  assert (R0 : runs demo (shake 0 ++ send 1 beacon) (start demo) = Some (base 2 11, trace (shake 0 ++ send 1 beacon))) by (vm_compute; reflexivity).
  assert (P0 : forallb peaceful (trace (shake 0 ++ send 1 beacon)) = true) by (vm_compute; reflexivity).
  destruct (rounds_ok (N.to_nat 4294967282) 2) as (ls&c&t1&R1&P1); [rewrite N2Nat.id; lia|].
  rewrite N2Nat.id in R1. change (11 + 4294967282) with 4294967293 in R1.
  destruct (round_ok c 4294967293 10) as (t2&R2&P2); [reflexivity|discriminate|reflexivity|].
  destruct (collision (S c)) as (s&R3).
  exists (trace (shake 0 ++ send 1 beacon) ++ t1 ++ t2 ++ [XCall demo (S c) (req 0); XSeqNo demo (S c) 11] ++ [XApiEnd demo (Some (XSequence 11))]).
  exists (trace (shake 0 ++ send 1 beacon) ++ t1 ++ t2 ++ [XCall demo (S c) (req 0); XSeqNo demo (S c) 11]). split; [|split; [|split]].
  - exists ((shake 0 ++ send 1 beacon) ++ ls ++ round c 10 ++ send (S c) (req 0)), s.
    rewrite (runs_app demo _ _ _ _ _ R0), (runs_app demo _ _ _ _ _ R1), (runs_app demo _ _ _ _ _ R2), R3. reflexivity.
  - rewrite <- !app_assoc. reflexivity.
  - rewrite !forallb_app, P0, P1, P2. reflexivity.
  - assert (J : In (XSeqNo demo 1 11) (trace (shake 0 ++ send 1 beacon))) by here. destruct (in_split _ _ J) as (u1&u2&U). rewrite U.
    exists u1, (u2 ++ t1 ++ t2 ++ [XCall demo (S c) (req 0)]), (S c). repeat (rewrite <- ?app_assoc; cbn [app]). reflexivity.
Qed.
Example C37_reuse_example : exists t u1 u2 b u3, exec demo t /\ t = u1 ++ XSeqNo demo 1 11 :: u2 ++ XSeqNo demo b 11 :: u3.
Proof.
  destruct C57_wrap_around_refuted as (t&t1&X&->&_&u1&u2&b&->). eexists _, u1, u2, b, _. split; [exact X|].
  repeat (rewrite <- ?app_assoc; cbn [app]). reflexivity.
Qed.

Print Assumptions C36_response_carries_number.
Print Assumptions C36_request_answered.
Print Assumptions C36_at_most_once.
Print Assumptions C50_results_explained.
Print Assumptions C37_numbers.
Print Assumptions C37_outstanding_distinct.
Print Assumptions C37_reuse.
Print Assumptions C51_fate.
Print Assumptions C39_no_call_takes_a_broadcast_partial.
Print Assumptions C39_broadcast_delivered_partial.
Print Assumptions C40_connected_after_handshake.
Print Assumptions C40_uuid_from_handshake.
Print Assumptions C52_events_in_order.
Print Assumptions C52_broadcasts_in_order.
Print Assumptions C53_over.
Print Assumptions C53_calls_end.
Print Assumptions C54_can_stop_partial.
Print Assumptions C38_why_requests_fail_partial.
Print Assumptions C38_timeouts_alone_partial.
Print Assumptions C55_why_messages_fail_partial.
Print Assumptions C55_nobody_abandons_partial.
Print Assumptions C56_no_reconnection.
Print Assumptions C57_numbering_partial.
Print Assumptions C39_broadcast_delivered_refuted.
Print Assumptions C40_calls_wait_refuted.
Print Assumptions C54_can_stop_refuted.
Print Assumptions C38_late_response_refuted.
Print Assumptions C55_abandoning_refuted.
Print Assumptions C56_reconnects_refuted.
Print Assumptions C57_second_confirmation_refuted.
Print Assumptions C57_wrap_around_refuted.
