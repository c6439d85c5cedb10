(** A generated Rust consumer left to itself: each of its own steps brings it nearer
    to rest (C106). *)
From Coq Require Import List NArith Arith Bool Lia.
From Verif Require Import Bytes WireModel FrameModel FrameProofs ConsumerModel.
From Verif Require ConsumerInv ConsumerTrace2 SystemModel PropConsumerLife SystemLive.
From Verif Require Import ClientRest.
Import ListNotations.
Open Scope nat_scope.

Section Rest.
Variable E : cenv.
Local Notation st := (st E).
Local Notation out := (out E).
Local Notation label := (label E).
Local Notation kind := (kind E).
Local Notation stage := (stage E).
Local Notation cmd := (cmd E).

(** The steps that need neither the transport, a timer nor a decision of the
    application: the tasks of [listen] go on with what is in their channels, calls go
    on with what they have been given, and handlers return. *)
Definition automatic (l : label) : Prop :=
  match l with
  | LAct _ _ _ | LApi _ _ | LApiCancel _ | LNext _ | LAnswer _ | LAuth _ | LMsgCancel _ | LClientCancel _
  | LShut _ | LShutCancel _ | LDone _ | LOver _ | LEmit _ | LHandled _ => True
  | _ => False
  end.

(** ** How many messages it may still send by itself *)
Definition base (sg : stage) : nat :=
  match sg with Init _ | WSeq _ | GSeq _ _ | WUuid _ _ | GUuid _ _ _ => 1 | _ => 0 end.
Definition need (x : kind * stage) : nat := base (snd x) + match fst x with KAuth0 _ => 1 | _ => 0 end.
Definition is_req (c : cmd) : nat := match c with QRequest _ _ _ _ => 1 | _ => 0 end.
Fixpoint lsum {B} (f : B -> nat) (l : list B) : nat := match l with [] => 0 | x :: l => f x + lsum f l end.
Definition asum (f : kind * stage -> nat) (l : list (nat * (kind * stage))) : nat := lsum (fun x => f (snd x)) l.
Definition sends (s : st) : nat := asum need (s_acts E s) + lsum is_req (s_q E s).
(** confirmations it has read *)
Definition confirms (t : list out) : nat :=
  length (filter (fun hm => x_confirm E (snd hm)) (PropConsumerLife.read E t)).

(** ** How much is in its channels *)
Definition wstage (sg : stage) : nat :=
  match sg with
  | Init _ => 14 | WSeq _ => 12 | GSeq _ _ => 11 | WUuid _ _ => 8 | GUuid _ _ _ => 7
  | WResp _ _ => 5 | GResp _ _ _ => 4 | WStop _ => 5 | GStop _ => 4
  end.
Definition wact (x : kind * stage) : nat := wstage (snd x) + match fst x with KAuth0 _ => 3 | _ => 0 end.
Definition wcmd (c : cmd) : nat := match c with QUuid _ _ | QShutdown _ _ => 2 | _ => 1 end.
Definition wauth (x : amsg) : nat := match x with ASet _ => 3 | AGet _ => 1 end.
Definition wmsg (m : mstate E) : nat :=
  match m with MIdle _ => 1 | MDrain _ => 2 | MWait _ _ _ None => 8 | MWait _ _ _ (Some _) => 5 | MEnd _ _ => 0 end.
Definition wopt {B} (n : nat) (x : option B) : nat := match x with None => n | _ => 0 end.
Definition wshut (x : shstate) : nat := match x with ShWait => 1 | _ => 0 end.
Definition whand (x : option (option nat)) : nat := match x with None => 0 | Some None => 1 | Some (Some _) => 2 end.
Definition wbool (n : nat) (b : bool) : nat := if b then 0 else n.
Definition weight (s : st) : nat :=
  asum wact (s_acts E s) + lsum wcmd (s_q E s) + lsum wauth (s_qauth E s) + length (s_qshut E s)
  + wmsg (s_msg E s) + wopt 1 (s_api E s) + wopt 3 (s_cli E s) + wshut (s_shut E s)
  + 2 * length (s_emit E s) + whand (s_hand E s) + wbool 3 (s_done E s) + wbool 1 (s_over E s).
Definition pending (s : st) : nat := length (rb_queue (s_buf E s)).
Definition crank (s : st) : nat * nat := (pending s, weight s).

Lemma asum_put f a x y l : act E a l = Some x -> asum f (put_act E a y l) + f x = asum f l + f y.
Proof.
  unfold asum. induction l as [|[b z] l IH]; cbn [act put_act]; [discriminate|].
  destruct (Nat.eqb a b); cbn [lsum snd]; intros H; [injection H as ->; lia|]. specialize (IH H). lia.
Qed.
Lemma asum_del f a x l : act E a l = Some x -> asum f (del_act E a l) + f x = asum f l.
Proof.
  unfold asum. induction l as [|[b z] l IH]; cbn [act del_act]; [discriminate|].
  destruct (Nat.eqb a b); cbn [lsum snd]; intros H; [injection H as ->; lia|]. specialize (IH H). lia.
Qed.
Lemma lsum_app {B} (f : B -> nat) x y : lsum f (x ++ y) = lsum f x + lsum f y.
Proof. induction x as [|a x IH]; cbn [app lsum]; [reflexivity|]. rewrite IH. lia. Qed.

(** [s'] comes after [s]: not more to send, and nearer to rest *)
Definition closer (s s' : st) (t : list out) : Prop :=
  sends s' + length (SystemModel.sent_up E t) <= sends s + 2 * confirms t /\ lex lt lt (crank s') (crank s).
Local Ltac shape := unfold closer, lex, crank, pending, weight, sends, confirms, PropConsumerLife.read, SystemModel.sent_up, lex;
  cbn [s_next s_acts s_api s_pend s_seq s_q s_msg s_buf s_uuid s_qauth s_cli s_cancel s_qshut s_shut s_emit s_hand s_done s_over
    set_acts add_act set_api set_msg set_cli set_shut set_emit set_over set_done set_hand push_q set_mstate set_qauth go gone fst snd app flat_map filter length emit end_api end_msg].
Local Ltac sums := rewrite ?lsum_app, ?app_length;
  cbn [lsum is_req wcmd wauth wmsg wopt wshut whand wbool length need wact base wstage fst snd] in *.

Lemma gone_closer a k sg s o : act E a (s_acts E s) = Some (k, sg) ->
  PropConsumerLife.read E o = [] -> SystemModel.sent_up E o = [] -> closer s (gone E a s) o.
Proof.
  intros A R U. pose proof (asum_del need _ _ _ A) as D1. pose proof (asum_del wact _ _ _ A) as D2.
  unfold closer, confirms. rewrite R, U. shape. assert (4 <= wact (k, sg)) by (unfold wact; cbn [fst snd]; destruct sg; cbn [wstage]; lia).
  split; [lia|]. right. split; [reflexivity|]. lia.
Qed.
Lemma return_closer a k sg r s s' o : act E a (s_acts E s) = Some (k, sg) -> return_ E a r s = (s', o) -> closer s s' o.
Proof. intros A F. injection F as <- <-. eapply gone_closer; eauto. Qed.
Lemma end_auth_closer a k sg r s s' o : act E a (s_acts E s) = Some (k, sg) -> end_auth E a r s = (s', o) -> closer s s' o.
Proof.
  intros A F. unfold end_auth in F. destruct (msg_up E s); injection F as <- <-; [|eapply gone_closer; eauto].
  pose proof (asum_del need _ _ _ A) as D1. pose proof (asum_del wact _ _ _ A) as D2. assert (4 <= wact (k, sg)) by (unfold wact; cbn [fst snd]; destruct sg; cbn [wstage]; lia).
  shape. sums. split; [lia|]. right. split; [reflexivity|]. lia.
Qed.
Lemma fails_closer a k k' sg e s s' o : act E a (s_acts E s) = Some (k', sg) -> fails E a k e s = (s', o) -> closer s s' o.
Proof. intros A F. destruct k; cbn [fails] in F; first [eapply return_closer; eassumption|eapply end_auth_closer; eassumption]. Qed.
Lemma request_closer a k sg k' n p s s' o : act E a (s_acts E s) = Some (k, sg) -> need (k', WResp E n) + 1 <= need (k, sg) -> wact (k', WResp E n) + 1 < wact (k, sg) ->
  request E a k' n p s = (s', o) -> closer s s' o.
Proof.
  intros A N W F. unfold request in F. destruct (api_up E s); [|eapply fails_closer; eassumption]. injection F as <- <-.
  pose proof (asum_put need _ _ (k', WResp E n) _ A) as D1. pose proof (asum_put wact _ _ (k', WResp E n) _ A) as D2.
  shape. rewrite !lsum_app. cbn [lsum is_req wcmd]. split; [lia|]. right. split; [reflexivity|]. lia.
Qed.
Lemma ask_closer a k sg c sg' s s' o : act E a (s_acts E s) = Some (k, sg) -> need (k, sg') + is_req c <= need (k, sg) -> wact (k, sg') + wcmd c < wact (k, sg) ->
  ask E a k c sg' s = (s', o) -> closer s s' o.
Proof.
  intros A N W F. unfold ask in F. destruct (api_up E s); [|eapply fails_closer; eassumption]. injection F as <- <-.
  pose proof (asum_put need _ _ (k, sg') _ A) as D1. pose proof (asum_put wact _ _ (k, sg') _ A) as D2.
  shape. rewrite !lsum_app. cbn [lsum]. split; [lia|]. right. split; [reflexivity|]. lia.
Qed.
Local Ltac small := unfold need, wact; cbn [fst snd base wstage is_req wcmd]; try lia.
Lemma act_closer a ok s s' o : run_act E a ok s = Some (s', o) -> closer s s' o.
Proof.
  intros F. unfold run_act in F. destruct (act E a (s_acts E s)) as [[k sg]|] eqn:A; [|discriminate F].
  destruct sg.
  - injection F as F. destruct k; [eapply ask_closer; [exact A| | |exact F]; small..| |].
    + destruct ok; [|eapply fails_closer; eassumption]. eapply request_closer; [exact A| | |exact F]; small.
    + eapply fails_closer; eassumption.
  - destruct (has_sender E a s); [discriminate F|]. injection F as F. eapply fails_closer; eassumption.
  - injection F as F. eapply ask_closer; [exact A| | |exact F]; small.
  - destruct (has_sender E a s); [discriminate F|]. injection F as F. eapply fails_closer; eassumption.
  - injection F as F. destruct k; try (eapply fails_closer; eassumption); (destruct ok; [|eapply fails_closer; eassumption]); eapply request_closer; [exact A| | |exact F| exact A| | |exact F]; small.
  - destruct (has_sender E a s); [discriminate F|]. injection F as F. eapply fails_closer; eassumption.
  - injection F as F. destruct k; try (eapply return_closer; eassumption).
    + destruct (x_self E m); [|eapply end_auth_closer; eassumption]. destruct ok; [|eapply end_auth_closer; eassumption]. eapply request_closer; [exact A| | |exact F]; small.
    + destruct (x_hash E m) as [[]|]; eapply end_auth_closer; eassumption.
  - destruct (has_sender E a s); [discriminate F|]. injection F as F. eapply fails_closer; eassumption.
  - injection F as F. destruct k; first [eapply return_closer; eassumption|eapply fails_closer; eassumption].
Qed.

Lemma wopt_le {B} n (x : option B) : wopt n x <= n. Proof. destruct x; cbn [wopt]; lia. Qed.
Lemma api_closer c q ok s s' o : api_up E s = true -> s_q E s = c :: q ->
  api_cmd E c ok (set_api E (s_api E s) (s_pend E s) (s_seq E s) q (s_cancel E s) s) = Some (s', o) -> closer s s' o.
Proof.
  intros U Q F. unfold api_up in U. destruct (s_api E s) eqn:AP; [discriminate U|].
  destruct c; cbn [api_cmd set_api s_pend s_acts s_msg s_shut s_qshut s_seq s_api s_q s_cancel set_mstate set_msg go set_acts] in F.
  - destruct (pfind n (s_pend E s)).
    + injection F as <- <-. shape. rewrite Q, AP. sums. split; [lia|]. right. split; [reflexivity|]. lia.
    + destruct ok; injection F as <- <-; shape; rewrite Q, AP; sums; (split; [lia|]); right; (split; [reflexivity|]); lia.
  - destruct (pfind n (s_pend E s)) as [a|].
    + destruct (act E a (s_acts E s)) as [[k sg]|] eqn:A; [|injection F as <- <-; shape; rewrite Q, AP; sums; (split; [lia|]); right; (split; [reflexivity|]); lia].
      destruct sg as [| | | | |n0| | |]; try (injection F as <- <-; shape; rewrite Q, AP; sums; (split; [lia|]); right; (split; [reflexivity|]); lia).
      pose proof (asum_put need _ _ (k, GResp E n m) _ A) as D1. pose proof (asum_put wact _ _ (k, GResp E n m) _ A) as D2.
      unfold need, wact in D1, D2. cbn [fst snd base wstage] in D1, D2. fold need wact in D1, D2.
      destruct (s_msg E s) as [| |h m0 [b|]|] eqn:SM; injection F as <- <-; shape; rewrite Q, AP, SM; sums; (split; [lia|]); right; (split; [reflexivity|]); lia.
    + destruct (s_msg E s) as [| |h m0 [b|]|] eqn:SM; injection F as <- <-; shape; rewrite Q, AP, SM; sums; (split; [lia|]); right; (split; [reflexivity|]); lia.
  - destruct (msg_up E _); injection F as <- <-; shape; rewrite Q, AP; sums; (split; [lia|]); right; (split; [reflexivity|]); lia.
  - destruct (act E a (s_acts E s)) as [[k sg]|] eqn:A; [|injection F as <- <-; shape; rewrite Q, AP; sums; (split; [lia|]); right; (split; [reflexivity|]); lia].
    destruct sg; try (injection F as <- <-; shape; rewrite Q, AP; sums; (split; [lia|]); right; (split; [reflexivity|]); lia).
    pose proof (asum_put need _ _ (k, GSeq E (next_seq (s_seq E s))) _ A) as D1. pose proof (asum_put wact _ _ (k, GSeq E (next_seq (s_seq E s))) _ A) as D2.
    unfold need, wact in D1, D2. cbn [fst snd base wstage] in D1, D2. fold need wact in D1, D2.
    injection F as <- <-; shape; rewrite Q, AP; sums; (split; [lia|]); right; (split; [reflexivity|]); lia.
  - destruct (s_shut E s) eqn:SH.
    + destruct (Nat.ltb _ _); [|discriminate F]. injection F as <- <-; shape; rewrite Q, AP, SH; sums; (split; [lia|]); right; (split; [reflexivity|]); lia.
    + injection F as <- <-; shape; rewrite Q, AP, SH; sums; (split; [lia|]); right; (split; [reflexivity|]); lia.
    + injection F as <- <-; shape; rewrite Q, AP, SH; sums; (split; [lia|]); right; (split; [reflexivity|]); lia.
Qed.

Lemma next_closer s s' o : s_msg E s = MDrain E -> next_msg E s = (s', o) -> closer s s' o.
Proof.
  intros SM F. unfold next_msg, next in F. destruct (rb_queue (s_buf E s)) as [|[h m] q] eqn:RQ.
  - injection F as <- <-. shape. rewrite SM, RQ. sums. split; [lia|]. right. split; [reflexivity|]. lia.
  - destruct (x_confirm E m) eqn:XC.
    + injection F as <- <-. shape. rewrite RQ. cbn [snd]. rewrite XC. cbn [rb_queue length]. unfold asum. cbn [lsum snd]. change (need (KAuth0 E, Init E)) with 2. split; [lia|]. left. lia.
    + destruct (api_up E s).
      * injection F as <- <-. shape. rewrite RQ. cbn [snd]. rewrite XC. cbn [rb_queue length]. rewrite !lsum_app. cbn [lsum is_req]. split; [lia|]. left. lia.
      * unfold not_accepted, dispatch, emit in F. destruct (x_broadcast E m); injection F as <- <-; shape; rewrite RQ; cbn [snd]; rewrite XC; cbn [rb_queue length]; (split; [lia|]); left; lia.
Qed.
Lemma auth_closer x q s s' o : s_msg E s = MIdle E -> s_qauth E s = x :: q -> auth_msg E x (set_qauth E q s) = (s', o) -> closer s s' o.
Proof.
  intros SM Q F. unfold auth_msg, emit, end_msg in F. destruct x as [[t|e]|a].
  - destruct (x_uuid E t); injection F as <- <-; shape; rewrite Q, SM; sums; (split; [lia|]); right; (split; [reflexivity|]); lia.
  - injection F as <- <-; shape; rewrite Q, SM; sums; (split; [lia|]); right; (split; [reflexivity|]); lia.
  - cbn [set_qauth set_msg s_acts] in F.
    destruct (act E a (s_acts E s)) as [[k sg]|] eqn:A; [|injection F as <- <-; shape; rewrite Q, SM; sums; (split; [lia|]); right; (split; [reflexivity|]); lia].
    destruct sg; try (injection F as <- <-; shape; rewrite Q, SM; sums; (split; [lia|]); right; (split; [reflexivity|]); lia).
    pose proof (asum_put need _ _ (k, GUuid E n (s_uuid E s)) _ A) as D1. pose proof (asum_put wact _ _ (k, GUuid E n (s_uuid E s)) _ A) as D2.
    unfold need, wact in D1, D2. cbn [fst snd base wstage] in D1, D2. fold need wact in D1, D2.
    injection F as <- <-; shape; cbn [s_uuid set_qauth set_msg]; rewrite Q; sums; (split; [lia|]); right; (split; [reflexivity|]); lia.
Qed.

(** Each own step leaves no more to be sent, but for what was sent, unless it reads a
    confirmation, and brings the consumer nearer to rest. *)
Lemma nearer l s s' t : automatic l -> fire E l s = Some (s', t) -> closer s s' t.
Proof.
  intros AU F. destruct l; try elim AU; cbn [fire] in F.
  - exact (act_closer _ _ _ _ _ F).
  - destruct (api_up E s) eqn:U; [|discriminate F]. destruct (s_q E s) as [|c q] eqn:Q; [discriminate F|]. exact (api_closer _ _ _ _ _ _ U Q F).
  - destruct (api_up E s) eqn:U; [|discriminate F]. destruct (s_cancel E s); [|discriminate F]. unfold api_up in U. destruct (s_api E s) eqn:AP; [discriminate U|].
    injection F as <- <-; shape; rewrite AP; sums; (split; [lia|]); right; (split; [reflexivity|]); lia.
  - destruct (s_msg E s) eqn:SM; try discriminate F. injection F as F. exact (next_closer _ _ _ SM F).
  - destruct (s_msg E s) as [| |h m [[|]|]|] eqn:SM; try discriminate F; [|unfold dispatch in F|destruct (api_up E s); [discriminate F|]; unfold not_accepted, dispatch, emit in F];
      [|destruct (x_broadcast E m)..]; injection F as <- <-; shape; rewrite SM; sums; (split; [lia|]); right; (split; [reflexivity|]); lia.
  - destruct (s_msg E s) eqn:SM; try discriminate F. destruct (s_qauth E s) as [|x q] eqn:Q; [discriminate F|]. injection F as F. exact (auth_closer _ _ _ _ _ SM Q F).
  - destruct (s_msg E s) eqn:SM; try discriminate F. destruct (s_cancel E s); [|discriminate F].
    injection F as <- <-; shape; rewrite SM; sums; (split; [lia|]); right; (split; [reflexivity|]); lia.
  - destruct (s_cli E s) eqn:CL; [discriminate F|]. destruct (s_cancel E s); [|discriminate F].
    injection F as <- <-; shape; rewrite CL; sums; (split; [lia|]); right; (split; [reflexivity|]); lia.
  - destruct (s_shut E s) eqn:SH; try discriminate F. destruct (s_qshut E s) eqn:Q; [discriminate F|].
    injection F as <- <-; shape; rewrite SH, Q; sums; (split; [lia|]); right; (split; [reflexivity|]); lia.
  - destruct (s_shut E s) eqn:SH; try discriminate F. destruct (s_cancel E s); [|discriminate F].
    injection F as <- <-; shape; rewrite SH; sums; (split; [lia|]); right; (split; [reflexivity|]); lia.
  - destruct (s_api E s); [|discriminate F]. destruct (s_msg E s); try discriminate F. destruct (s_cli E s); [|discriminate F]. destruct (s_done E s) eqn:DN; [discriminate F|].
    injection F as <- <-; shape; rewrite DN; sums; (split; [lia|]); right; (split; [reflexivity|]); lia.
  - destruct (s_api E s) eqn:AP; [|discriminate F]. destruct (s_msg E s) eqn:SM; try discriminate F. destruct (s_cli E s) eqn:CL; [|discriminate F]. destruct (s_emit E s) eqn:EM; [|discriminate F]. destruct (s_hand E s) eqn:HN; [discriminate F|].
    destruct (s_done E s) eqn:DN; [|discriminate F]. destruct (s_over E s) eqn:OV; [discriminate F|]. cbn [andb negb] in F.
    destruct (s_shut E s) eqn:SH; [discriminate F| |injection F as <- <-; shape; rewrite AP, SM, CL, EM, HN, DN, OV, SH; sums; (split; [lia|]); right; (split; [reflexivity|]); lia].
    cbn [set_over s_acts] in F. destruct (act E a (s_acts E s)) as [[k sg]|] eqn:A; [|injection F as <- <-; shape; rewrite AP, SM, CL, EM, HN, DN, OV, SH; sums; (split; [lia|]); right; (split; [reflexivity|]); lia].
    pose proof (asum_put need _ _ (k, GStop E) _ A) as D1. pose proof (asum_put wact _ _ (k, GStop E) _ A) as D2.
    destruct sg; injection F as <- <-; unfold need, wact in D1, D2; cbn [fst snd base wstage] in D1, D2; fold need wact in D1, D2;
      shape; rewrite AP, SM, CL, EM, HN, DN, OV, SH; sums; (split; [lia|]); right; (split; [reflexivity|]); lia.
  - destruct (s_emit E s) eqn:EM; [discriminate F|]. destruct (s_hand E s) eqn:HN; [discriminate F|].
    injection F as <- <-; shape; rewrite EM, HN; sums; (split; [lia|]); right; (split; [reflexivity|]); lia.
  - destruct (s_hand E s) as [[a|]|] eqn:HN; try discriminate F; [destruct (act E a (s_acts E s)); [discriminate F|]|];
    injection F as <- <-; shape; rewrite HN; sums; (split; [lia|]); right; (split; [reflexivity|]); lia.
Qed.

(** A chunk leaves no more to be sent. *)
Lemma event_sends d s s' t : fire E (LEvent E (InBinary d)) s = Some (s', t) ->
  sends s' <= sends s /\ SystemModel.sent_up E t = [] /\ PropConsumerLife.read E t = [].
Proof.
  intros F. cbn [fire] in F. destruct (s_msg E s); try discriminate F. injection F as F. unfold client_event in F.
  destruct (chunk _ _ _ _) as [[|e|] b]; unfold emit, crash in F; injection F as <- <-; split; [| split; reflexivity| | split; reflexivity| | split; reflexivity]; shape; cbn [lsum]; lia.
Qed.

(** ** When it has no step left *)
Definition still (s : st) : Prop := forall l, automatic l -> fire E l s = None.

(** Either it has none, or there is one. *)
Definition own_labels (s : st) : list label :=
  flat_map (fun x => [LAct E (fst x) true; LAct E (fst x) false]) (s_acts E s) ++
  [LApi E true; LApi E false; LApiCancel E; LNext E; LAnswer E; LAuth E; LMsgCancel E; LClientCancel E; LShut E; LShutCancel E; LDone E; LOver E; LEmit E; LHandled E].
Lemma act_in a x l : act E a l = Some x -> In (a, x) l.
Proof.
  induction l as [|[b z] l IH]; cbn [act]; [discriminate|]. destruct (Nat.eqb_spec a b) as [->|]; intros H; [injection H as ->; left; reflexivity|right; auto].
Qed.
Lemma steps s : still s \/ exists l s' t, automatic l /\ fire E l s = Some (s', t).
Proof.
  assert (D : forall ls, Forall automatic ls -> Forall (fun l => fire E l s = None) ls \/ exists l s' t, automatic l /\ fire E l s = Some (s', t)).
  { induction 1 as [|l ls AU _ [IH|IH]]; [left; constructor| |right; exact IH].
    destruct (fire E l s) as [[s' t]|] eqn:F; [right; eauto 6|left; constructor; auto]. }
  destruct (D (own_labels s)) as [N|N]; [| |right; exact N].
  { unfold own_labels. apply Forall_app. split; [|repeat constructor]. apply Forall_forall. intros l J. apply in_flat_map in J. destruct J as (x & _ & [<-|[<-|[]]]); exact I. }
  left. rewrite Forall_forall in N. unfold own_labels in N. intros l AU.
  assert (T : forall l, In l [LApi E true; LApi E false; LApiCancel E; LNext E; LAnswer E; LAuth E; LMsgCancel E; LClientCancel E; LShut E; LShutCancel E; LDone E; LOver E; LEmit E; LHandled E] -> fire E l s = None)
    by (intros l' J; apply N, in_app_iff; right; exact J).
  destruct l; try elim AU; try (apply T; cbn [In]; tauto).
  - cbn [fire]. destruct (act E a (s_acts E s)) as [x|] eqn:A; [|unfold run_act; rewrite A; reflexivity].
    apply (N (LAct E a ok)), in_app_iff. left. apply in_flat_map. exists (a, x). split; [exact (act_in _ _ _ A)|]. cbn [fst]. destruct ok; cbn [In]; tauto.
  - apply T. destruct ok; cbn [In]; tauto.
Qed.

Lemma still_check s : forallb (fun l => match fire E l s with None => true | _ => false end) (own_labels s) = true -> still s.
Proof.
  intros H l AU. destruct (fire E l s) as [p|] eqn:F; [exfalso|reflexivity]. rewrite forallb_forall in H.
  assert (N : forall l, In l (own_labels s) -> fire E l s = None) by (intros l' J; specialize (H _ J); destruct (fire E l' s); [discriminate H|reflexivity]).
  assert (J : In l (own_labels s)).
  { unfold own_labels. apply in_app_iff. destruct l; try elim AU; try (right; cbn [In]; tauto).
    - left. cbn [fire] in F. unfold run_act in F. destruct (act E a (s_acts E s)) as [x|] eqn:A; [|discriminate F].
      apply in_flat_map. exists (a, x). split; [exact (act_in _ _ _ A)|]. cbn [fst]. destruct ok; cbn [In]; tauto.
    - right. destruct ok; cbn [In]; tauto. }
  rewrite (N _ J) in F. discriminate F.
Qed.

(** While its tasks run it waits for the transport. *)
Lemma still_idle s : still s -> SystemLive.idle E s.
Proof. intros S. repeat split; intros; apply S; exact I. Qed.
Lemma idle_ready tr s : ConsumerTrace2.inv E tr s -> SystemLive.idle E s -> api_up E s = true -> msg_up E s = true -> s_q E s = [] /\ s_msg E s = MIdle E.
Proof.
  intros I (RA & RQ & RN & RW & RH & RS) U M.
  assert (Q0 : s_q E s = []).
  { destruct (s_q E s) as [|c q] eqn:Q; [reflexivity|exfalso]. specialize (RQ true). cbn [fire] in RQ. rewrite U, Q in RQ.
    destruct c; cbn [api_cmd] in RQ.
    - cbn [s_pend set_api] in RQ. destruct (pfind n _); discriminate RQ.
    - destruct (pfind n _); [|discriminate RQ]. destruct (act E n0 _) as [[k0 []]|]; try discriminate RQ.
      match type of RQ with context [let '(_, _) := ?x in _] => destruct x end. discriminate RQ.
    - destruct (msg_up E _); discriminate RQ.
    - destruct (act E a _) as [[k0 []]|]; discriminate RQ.
    - match type of RQ with context [s_shut E ?x] => change (s_shut E x) with (s_shut E s) in RQ; change (s_qshut E x) with (s_qshut E s) in RQ end.
      cbn [fire] in RS. destruct (s_shut E s); try discriminate RQ. destruct (s_qshut E s); [discriminate RQ|discriminate RS]. }
  split; [exact Q0|].
  pose proof (ConsumerTrace2.i_accepts _ _ _ I) as AC. unfold ConsumerInv.accepts_ok in AC. rewrite Q0, U in AC. cbn [fire] in RN, RW. unfold msg_up in M.
  destruct (s_msg E s) as [| |h m [[|]|]|]; try reflexivity; discriminate.
Qed.

(** When it has been cancelled, its [listen] has returned, or a handler awaits the
    very [shutdown] that waits for it. *)
Lemma still_cancelled tr s : ConsumerTrace2.inv E tr s -> still s -> s_cancel E s = true ->
  s_over E s = true \/ exists a k, s_hand E s = Some (Some a) /\ s_shut E s = ShGot a /\ act E a (s_acts E s) = Some (k, WStop E).
Proof.
  intros I S C. pose proof (ConsumerTrace2.i_tasks _ _ _ I) as K.
  assert (U : api_up E s = false).
  { pose proof (S (LApiCancel E) Logic.I) as F. cbn [fire] in F. rewrite C in F. destruct (api_up E s); [discriminate F|reflexivity]. }
  assert (M : msg_up E s = false).
  { pose proof (S (LMsgCancel E) Logic.I) as F. pose proof (S (LNext E) Logic.I) as F1. pose proof (S (LAnswer E) Logic.I) as F2. cbn [fire] in F, F1, F2.
    unfold msg_up. rewrite C in F. rewrite U in F2. destruct (s_msg E s) as [| |h m [[|]|]|]; try discriminate; reflexivity. }
  destruct (ConsumerInv.k_api _ _ K U) as (Q1 & Q2 & _). destruct (ConsumerInv.k_msg _ _ K M) as (Q3 & _).
  destruct (ConsumerInv.up_false _ _ M) as (rm & SM).
  assert (CL : exists rc, s_cli E s = Some rc).
  { pose proof (S (LClientCancel E) Logic.I) as F. cbn [fire] in F. rewrite C in F. destruct (s_cli E s) as [rc|]; [exists rc; reflexivity|discriminate F]. }
  destruct CL as (rc & CL). unfold api_up in U. destruct (s_api E s) as [ra|] eqn:AP; [|discriminate U].
  assert (DN : s_done E s = true).
  { pose proof (S (LDone E) Logic.I) as F. cbn [fire] in F. rewrite AP, SM, CL in F. destruct (s_done E s); [reflexivity|discriminate F]. }
  assert (SH : s_shut E s <> ShWait).
  { pose proof (S (LShutCancel E) Logic.I) as F. cbn [fire] in F. rewrite C in F. intro Z. rewrite Z in F. discriminate F. }
  pose proof (ConsumerInv.k_shut _ _ K SH) as Q4.
  pose proof (S (LHandled E) Logic.I) as F1. pose proof (S (LEmit E) Logic.I) as F2. pose proof (S (LOver E) Logic.I) as F3. cbn [fire] in F1, F2, F3.
  destruct (s_over E s) eqn:OV; [left; reflexivity|right].
  destruct (s_hand E s) as [[a|]|] eqn:HN; [|discriminate F1|].
  - destruct (act E a (s_acts E s)) as [[k sg]|] eqn:A; [|discriminate F1]. exists a, k. split; [reflexivity|].
    pose proof (S (LAct E a true) Logic.I) as F. cbn [fire] in F. unfold run_act in F. rewrite A in F.
    assert (HS : has_sender E a s = true -> s_shut E s = ShGot a).
    { unfold has_sender. rewrite Q1, Q2, Q3, Q4. cbn [existsb orb]. destruct (s_shut E s) as [|b|]; try discriminate.
      destruct (Nat.eqb_spec a b) as [->|]; [reflexivity|discriminate]. }
    pose proof (ConsumerTrace2.i_senders _ _ _ I a) as SD. rewrite A in SD.
    destruct sg; try discriminate F; (destruct (has_sender E a s) eqn:HB; [|discriminate F]); specialize (HS eq_refl); (split; [exact HS|]); try exact A; exfalso.
    all: destruct SD as [SD|(x & X1 & X2)]; [apply ConsumerInv.has_sender_iff in SD; rewrite SD in HB; discriminate HB|].
    all: unfold ConsumerInv.senders in X2; rewrite Q1, Q2, Q3, Q4 in X2; cbn [flat_map app] in X2; unfold ConsumerInv.g_snd in X2; rewrite HS, OV in X2; unfold ConsumerInv.one in X2; rewrite Nat.eqb_refl in X2.
    all: cbn in X1, X2; injection X2 as X2; rewrite <- X2 in X1; discriminate X1.
  - destruct (s_emit E s) as [|e q] eqn:EM; [|discriminate F2]. exfalso.
    rewrite AP, SM, CL, DN in F3. cbn [andb negb] in F3. destruct (s_shut E s) as [|b|]; [elim SH; reflexivity| |discriminate F3]. discriminate F3.
Qed.

(** The consumer by itself cannot go on for ever. *)
Lemma consumer_acc s : Acc (fun b a => exists l t, automatic l /\ fire E l a = Some (b, t)) s.
Proof.
  assert (W : Acc (lex lt lt) (crank s)) by (apply lex_wf; exact lt_wf).
  remember (crank s) as k eqn:EK. revert s EK. induction W as [k _ IH]. intros s ->.
  constructor. intros s' (l & t & AU & F). apply (IH (crank s')); [exact (proj2 (nearer _ _ _ _ AU F))|reflexivity].
Qed.
End Rest.
