(** The diagram shows the workflow (C72). *)
From Coq Require Import String Ascii NArith List Arith Lia Bool.
From Verif Require Import Bytes ProtoModel WfModel ProtoProofs WfProofs PropProto PropWf.
From Verif Require Import RenderModel RenderProofs PropRender.
Import ListNotations.
Close Scope string_scope.
Open Scope list_scope.
Open Scope nat_scope.

(** the arrows a diagram of a workflow should have *)
Inductive sent (s : wstore) : string -> string -> string -> text -> Prop :=
| SentRequest r q : In r (w_requests s) -> rq_ref r = Some q -> sent s "Consumer" "->" "Producer" q
| SentError r e : In r (w_requests s) -> rq_err r = Some e -> sent s "Producer" "-->x" "Consumer" e
| SentResponse r a x : In r (w_requests s) -> In a (rq_actions r) -> ac_resp a = Some x ->
    sent s "Producer" "->" "Consumer" x
| SentBroadcast r a b : In r (w_requests s) -> In a (rq_actions r) -> In b (ac_bcs a) ->
    sent s "Producer" (if bc_opt b then "-->" else "->") "Consumers" (bc_ref b)
| SentEvent e q : In e (w_events s) -> ev_ref e = Some q -> sent s "Producer" "->" "Producer" q
| SentEventBroadcast e b : In e (w_events s) -> In b (ev_list e) -> sent s "Producer" "-->" "Consumer" (bc_ref b)
| SentBeacon b : In b (w_beacons s) -> sent s "Consumer" "-->" "Producer" (bc_ref b)
| SentConnected : sent s "Consumer" "->" "Producer" (txt "Connected Event")
| SentDisconnected : sent s "Consumer" "->" "Producer" (txt "Disconnected Event").

(** [body] is what a diagram has between the start and the end of a group *)
Definition group_of (l : list line) (name : text) (body : list line) : Prop :=
  (exists a b, l = a ++ LGroup name :: body ++ LEnd :: b) /\
  forall x, In x body -> x <> LEnd /\ forall n, x <> LGroup n.

Lemma request_lines : forall r ls, puml_request r = Ok ls ->
  exists q e body, rq_ref r = Some q /\ rq_err r = Some e /\
    ls = LGroup (plain_name q) :: (LArrow "Consumer" "->" "Producer" q :: LArrow "Producer" "-->x" "Consumer" e :: body) ++ [LEnd] /\
    (forall x, In x body -> x <> LEnd /\ forall n, x <> LGroup n) /\
    (forall a x, In a (rq_actions r) -> ac_resp a = Some x -> In (LArrow "Producer" "->" "Consumer" x) body) /\
    (forall a b, 1 < length (rq_actions r) -> In a (rq_actions r) -> In b (ac_bcs a) ->
       In (LArrow "Producer" (if bc_opt b then "-->" else "->") "Consumers" (bc_ref b)) body) /\
    (forall from arrow to m, In (LArrow from arrow to m) body ->
       exists a, In a (rq_actions r) /\
         ((from, arrow, to) = ("Producer", "->", "Consumer")%string /\ ac_resp a = Some m \/
          exists b, In b (ac_bcs a) /\ (from, arrow, to) = ("Producer", if bc_opt b then "-->" else "->", "Consumers")%string /\ m = bc_ref b)).
Proof.
  intros r ls H. unfold puml_request in H. apply bind_ok in H as (q & Q & H). apply bind_ok in H as (e & E & H).
  apply bind_ok in H as (l & L & H). injection H as <-.
  assert (Q' : rq_ref r = Some q) by (unfold get_request, need in Q; destruct (rq_ref r); [injection Q as <-; reflexivity | discriminate]).
  assert (E' : rq_err r = Some e) by (unfold get_err, need in E; destruct (rq_err r); [injection E as <-; reflexivity | discriminate]).
  exists q, e, (concat l). split; [exact Q'|]. split; [exact E'|]. split; [reflexivity|].
  destruct (several r) eqn:SV.
  - assert (LINE : forall x, In x (concat l) -> exists a c y, In a (rq_actions r) /\ ac_resp a = Some y /\
      In x (LSection c :: LArrow "Producer" "->" "Consumer" y ::
            map (fun b => LArrow "Producer" (if bc_opt b then "-->" else "->") "Consumers" (bc_ref b)) (ac_bcs a))).
    { intros x X. apply in_concat in X as (ys & Y & X). destruct (map_res_in _ _ _ _ _ _ L Y) as (a & A & G).
      apply bind_ok in G as (c & C & G). apply bind_ok in G as (y & YY & G). injection G as <-. exists a, c, y.
      split; [exact A|]. split; [|exact X]. unfold get_action_response, need in YY.
      destruct (ac_resp a); [injection YY as <-; reflexivity | discriminate]. }
    split; [|split; [|split]].
    + intros x X. destruct (LINE x X) as (a & c & y & _ & _ & [<-|[<-|I]]); [split; discriminate | split; discriminate|].
      apply in_map_iff in I as (b & <- & _). split; discriminate.
    + intros a x A R. destruct (map_res_in' _ _ _ _ _ _ L A) as (ys & Y & G).
      apply bind_ok in G as (c & C & G). apply bind_ok in G as (y & YY & G). injection G as <-.
      assert (y = x) as -> by (unfold get_action_response in YY; rewrite R in YY; injection YY as <-; reflexivity).
      apply in_concat. eexists. split; [exact Y | right; left; reflexivity].
    + intros a b _ A B. destruct (map_res_in' _ _ _ _ _ _ L A) as (ys & Y & G).
      apply bind_ok in G as (c & C & G). apply bind_ok in G as (y & YY & G). injection G as <-.
      apply in_concat. eexists. split; [exact Y|]. right; right.
      apply in_map_iff. exists b. split; [reflexivity | exact B].
    + intros from arrow to m X. destruct (LINE _ X) as (a & c & y & A & R & [K|[K|I]]); [discriminate| |].
      * injection K as <- <- <- K. exists a. split; [exact A|]. left. split; [reflexivity | congruence].
      * apply in_map_iff in I as (b & K & B). injection K as <- <- <- K. exists a. split; [exact A|]. right. exists b.
        split; [exact B|]. split; [reflexivity | congruence].
  - apply bind_ok in L as (x & X & L). injection L as <-. cbn [concat app].
    unfold get_response in X. unfold several in SV. apply Nat.ltb_ge in SV.
    destruct (rq_actions r) as [|a rest] eqn:A; [discriminate|]. destruct rest as [|a' rest]; [|cbn [length] in SV; lia].
    assert (R : ac_resp a = Some x) by (unfold need in X; destruct (ac_resp a); [injection X as <-; reflexivity | discriminate]).
    split; [|split; [|split]].
    + intros y [<-|[]]. split; discriminate.
    + intros b y [<-|[]] Y. left. congruence.
    + intros b y K. exfalso. cbn [length] in K. lia.
    + intros from arrow to m [K|[]]. injection K as <- <- <- <-. exists a. split; [left; reflexivity|]. left. split; [reflexivity | exact R].
Qed.

Lemma in_group : forall (l : list (list line)) name body ls, In ls l -> ls = LGroup name :: body ++ [LEnd] ->
  forall u v, exists a b, u ++ concat l ++ v = a ++ LGroup name :: body ++ LEnd :: b.
Proof.
  intros l name body ls I E u v. apply in_split in I as (l1 & l2 & ->). exists (u ++ concat l1), (concat l2 ++ v).
  rewrite concat_app. cbn [concat]. rewrite E. rewrite <- !app_assoc. cbn [app]. rewrite <- !app_assoc. reflexivity.
Qed.

(** Everything declared is drawn and nothing else; what belongs to a request is
    in its group.  The broadcasts of a request with one action are missing. *)
Theorem C72_diagram_partial : forall t p s p', wf_accepts t p s p' ->
  (forall r, In r (w_requests s) -> rq_actions r <> []) ->
  exists l, puml s = Ok (DDiagram l) /\
    (forall from arrow to m, In (LArrow from arrow to m) l -> sent s from arrow to m) /\
    ((forall r a, In r (w_requests s) -> rq_actions r = [a] -> ac_bcs a = []) ->
     forall from arrow to m, sent s from arrow to m -> In (LArrow from arrow to m) l) /\
    (forall r, In r (w_requests s) -> exists q e body, rq_ref r = Some q /\ rq_err r = Some e /\
       group_of l (plain_name q) (LArrow "Consumer" "->" "Producer" q :: LArrow "Producer" "-->x" "Consumer" e :: body) /\
       forall a x, In a (rq_actions r) -> ac_resp a = Some x -> In (LArrow "Producer" "->" "Consumer" x) body).
Proof.
  intros t p s p' ACC ACT. destruct (C24_complete t p s p' ACC) as (Q1 & Q2 & _).
  assert (RQ : exists rq, map_res puml_request (w_requests s) = Ok rq).
  { apply map_res_ok. intros r R. destruct (Q1 r R) as (A1 & A2 & A3). unfold puml_request, get_request, get_err, need.
    destruct (rq_ref r) as [q|]; [|contradiction]. specialize (A2 (ACT r R)). destruct (rq_err r) as [e|]; [|contradiction].
    cbn [bind]. destruct (several r) eqn:SV.
    - destruct (map_res_ok _ _ (fun a => do c <- get_conclusion a; do x <- get_action_response a;
        Ok (LSection c :: LArrow "Producer" "->" "Consumer" x ::
            map (fun b => LArrow "Producer" (if bc_opt b then "-->" else "->") "Consumers" (bc_ref b)) (ac_bcs a))) (rq_actions r)) as (l & L).
      + intros a A. destruct (A3 a A) as (B1 & B2). unfold several in SV. apply Nat.ltb_lt in SV. specialize (B2 SV).
        unfold get_conclusion, get_action_response, need. destruct (ac_concl a); [|contradiction]. destruct (ac_resp a); [|contradiction].
        eexists. reflexivity.
      + unfold need in L. rewrite L. eexists. reflexivity.
    - unfold get_response, need. specialize (ACT r R). destruct (rq_actions r) as [|a l]; [contradiction|].
      destruct (A3 a (or_introl eq_refl)) as (B1 & _). destruct (ac_resp a); [|contradiction]. eexists. reflexivity. }
  assert (EV : exists ev, map_res puml_event (w_events s) = Ok ev).
  { apply map_res_ok. intros e E. destruct (Q2 e E) as (A & _). unfold puml_event, get_reference, need.
    destruct (ev_ref e); [eexists; reflexivity | contradiction]. }
  destruct RQ as (rq & RQ). destruct EV as (ev & EV). exists (concat rq ++ concat ev ++ puml_beacons (w_beacons s)).
  split; [unfold puml; rewrite RQ; cbn [bind]; rewrite EV; reflexivity|]. split; [|split].
  - intros from arrow to m I. rewrite !in_app_iff in I. destruct I as [I|[I|I]].
    + apply in_concat in I as (ls & L & I). destruct (map_res_in _ _ _ _ _ _ RQ L) as (r & R & P).
      destruct (request_lines _ _ P) as (q & e & body & A1 & A2 & -> & _ & _ & _ & A3).
      cbn [app In] in I. destruct I as [I|[I|[I|I]]]; [discriminate| | |].
      * injection I as <- <- <- <-. exact (SentRequest s r q R A1).
      * injection I as <- <- <- <-. exact (SentError s r e R A2).
      * rewrite in_app_iff in I. destruct I as [I|[I|[]]]; [|discriminate].
        destruct (A3 _ _ _ _ I) as (a & A & [(K & X)|(b & B & K & ->)]).
        -- injection K as -> -> ->. exact (SentResponse s r a m R A X).
        -- injection K as -> -> ->. exact (SentBroadcast s r a b R A B).
    + apply in_concat in I as (ls & L & I). destruct (map_res_in _ _ _ _ _ _ EV L) as (e & E & P).
      unfold puml_event in P. apply bind_ok in P as (q & Q & P). injection P as <-.
      assert (ev_ref e = Some q) by (unfold get_reference, need in Q; destruct (ev_ref e); [injection Q as <-; reflexivity | discriminate]).
      cbn [In] in I. destruct I as [I|[I|I]]; [discriminate| |].
      * injection I as <- <- <- <-. eapply SentEvent; eassumption.
      * rewrite in_app_iff in I. destruct I as [I|[I|[]]]; [|discriminate]. apply in_map_iff in I as (b & K & B).
        injection K as <- <- <- <-. eapply SentEventBroadcast; eassumption.
    + unfold puml_beacons in I. cbn [In] in I. destruct I as [I|[I|[I|I]]]; [discriminate| | |].
      * injection I as <- <- <- <-. apply SentConnected.
      * injection I as <- <- <- <-. apply SentDisconnected.
      * rewrite in_app_iff in I. destruct I as [I|[I|[]]]; [|discriminate]. apply in_map_iff in I as (b & K & B).
        injection K as <- <- <- <-. apply SentBeacon. exact B.
  - intros NB from arrow to m H. rewrite !in_app_iff.
    assert (INR : forall r x, In r (w_requests s) -> (forall ls, puml_request r = Ok ls -> In x ls) -> In x (concat rq)).
    { intros r x R K. destruct (map_res_in' _ _ _ _ _ _ RQ R) as (ls & L & P). apply in_concat. exists ls. split; [exact L | exact (K ls P)]. }
    assert (INE : forall e x, In e (w_events s) -> (forall ls, puml_event e = Ok ls -> In x ls) -> In x (concat ev)).
    { intros e x R K. destruct (map_res_in' _ _ _ _ _ _ EV R) as (ls & L & P). apply in_concat. exists ls. split; [exact L | exact (K ls P)]. }
    destruct H as [r q R A|r e R A|r a x R A X|r a b R A B|e q E A|e b E B|b B| |].
    + left. apply (INR r); [exact R|]. intros ls P. destruct (request_lines _ _ P) as (q' & e & body & A1 & _ & -> & _).
      right; left. congruence.
    + left. apply (INR r); [exact R|]. intros ls P. destruct (request_lines _ _ P) as (q' & e' & body & _ & A1 & -> & _).
      right; right; left. congruence.
    + left. apply (INR r); [exact R|]. intros ls P. destruct (request_lines _ _ P) as (q' & e' & body & _ & _ & -> & _ & A1 & _).
      cbn [app In]. do 3 right. apply in_app_iff. left. exact (A1 a x A X).
    + left. apply (INR r); [exact R|]. intros ls P. destruct (request_lines _ _ P) as (q' & e' & body & _ & _ & -> & _ & _ & A1 & _).
      cbn [app In]. do 3 right. apply in_app_iff. left. apply (A1 a b); [|exact A | exact B].
      destruct (rq_actions r) as [|a1 [|a2 l]] eqn:AA; [contradiction| |cbn [length]; lia].
      destruct A as [<-|[]]. rewrite (NB r a1 R AA) in B. contradiction.
    + right; left. apply (INE e); [exact E|]. intros ls P. unfold puml_event, get_reference in P. rewrite A in P. injection P as <-.
      right; left. reflexivity.
    + right; left. apply (INE e); [exact E|]. intros ls P. unfold puml_event in P. apply bind_ok in P as (q & _ & P). injection P as <-.
      right; right. apply in_app_iff. left. apply in_map_iff. exists b. split; [reflexivity | exact B].
    + right; right. unfold puml_beacons. do 3 right. apply in_app_iff. left. apply in_map_iff. exists b. split; [reflexivity | exact B].
    + right; right. right; left. reflexivity.
    + right; right. right; right; left. reflexivity.
  - intros r R. destruct (map_res_in' _ _ _ _ _ _ RQ R) as (ls & L & P).
    destruct (request_lines _ _ P) as (q & e & body & A1 & A2 & EQ & NG & A3 & _). exists q, e, body.
    split; [exact A1|]. split; [exact A2|]. split; [|exact A3]. split.
    + exact (in_group _ _ _ _ L EQ [] _).
    + intros x [<-|[<-|X]]; [split; discriminate | split; discriminate | exact (NG x X)].
Qed.
Print Assumptions C72_diagram_partial.

(** the chat's diagram *)
Example C72_example : exists l, puml (fst chat) = Ok (DDiagram l) /\
  wf_accepts chat_workflow chat_store (fst chat) (snd chat) /\
  (forall r, In r (w_requests (fst chat)) -> rq_actions r <> []) /\
  (forall r a, In r (w_requests (fst chat)) -> rq_actions r = [a] -> ac_bcs a = []) /\
  firstn 9 l = [LGroup (txt "UserLoginRequest"); LArrow "Consumer" "->" "Producer" (txt "UserLogin.Request");
                LArrow "Producer" "-->x" "Consumer" (txt "UserLogin.Err");
                LSection (txt "Accept"); LArrow "Producer" "->" "Consumer" (txt "UserLogin.Accepted");
                LArrow "Producer" "->" "Consumers" (txt "Events.UserConnected");
                LArrow "Producer" "->" "Consumers" (txt "Events.Message");
                LSection (txt "Deny"); LArrow "Producer" "->" "Consumer" (txt "UserLogin.Denied")].
Proof.
  eexists. split; [vm_compute; reflexivity|]. split; [apply chat_rendered|]. split; [|split; [|reflexivity]].
  - assert (K : forallb (fun r => nonempty (rq_actions r)) (w_requests (fst chat)) = true) by (vm_compute; reflexivity).
    rewrite forallb_forall in K. intros r R E. specialize (K r R). rewrite E in K. discriminate K.
  - assert (K : forallb (fun r => match rq_actions r with [a] => negb (nonempty (ac_bcs a)) | _ => true end) (w_requests (fst chat)) = true)
      by (vm_compute; reflexivity).
    rewrite forallb_forall in K. intros r a R E. specialize (K r R). rewrite E in K. destruct (ac_bcs a); [reflexivity | discriminate K].
Qed.

(** a broadcast of a request with one action is not drawn *)
Theorem C72_single_action_refuted : exists t p s p' l r a b, wf_accepts t p s p' /\ puml s = Ok (DDiagram l) /\
  In r (w_requests s) /\ In a (rq_actions r) /\ In b (ac_bcs a) /\ forall from arrow to, ~ In (LArrow from arrow to (bc_ref b)) l.
Proof.
  set (t := odd_text "A.Ping !A.E { (Ok > A.R) > M; } "). exists t, odd_store, (fst (made t odd_store)), (snd (made t odd_store)).
  eexists _, (hd (request_new []) (w_requests (fst (made t odd_store)))),
    (hd action_new (rq_actions (hd (request_new []) (w_requests (fst (made t odd_store)))))), (mkBroadcast (txt "M") false).
  split; [apply made_accepts; vm_compute; reflexivity|]. split; [vm_compute; reflexivity|].
  split; [vm_compute; left; reflexivity|]. split; [vm_compute; left; reflexivity|]. split; [vm_compute; left; reflexivity|].
  intros from arrow to I. cbn [bc_ref] in I. cbn [In] in I.
  repeat (destruct I as [I|I]; [first [discriminate I | injection I; intros; discriminate]|]). contradiction.
Qed.
Print Assumptions C72_single_action_refuted.

(** the broadcasts of events are all drawn as optional, to one consumer *)
Theorem C72_event_mark_refuted : exists t t' p s s' p1 p1', wf_accepts t p s p1 /\ wf_accepts t' p s' p1' /\
  (exists e b, In e (w_events s) /\ In b (ev_list e) /\ bc_opt b = false) /\
  (forall e b, In e (w_events s') -> In b (ev_list e) -> bc_opt b = true) /\ puml s = puml s'.
Proof.
  set (t := odd_text "@A.Ping { > M; } "). set (t' := odd_text "@A.Ping { > M?; } ").
  exists t, t', odd_store, (fst (made t odd_store)), (fst (made t' odd_store)), (snd (made t odd_store)), (snd (made t' odd_store)).
  split; [apply made_accepts; vm_compute; reflexivity|]. split; [apply made_accepts; vm_compute; reflexivity|].
  split; [|split; [|vm_compute; reflexivity]].
  - exists (hd (event_new []) (w_events (fst (made t odd_store)))), (mkBroadcast (txt "M") false).
    split; [vm_compute; left; reflexivity|]. split; [vm_compute; left; reflexivity | reflexivity].
  - assert (K : forallb (fun e => forallb bc_opt (ev_list e)) (w_events (fst (made t' odd_store))) = true) by (vm_compute; reflexivity).
    rewrite forallb_forall in K. intros e b E B. specialize (K e E). rewrite forallb_forall in K. exact (K b B).
Qed.
Print Assumptions C72_event_mark_refuted.

(** an accepted workflow without a diagram *)
Theorem C72_no_actions_refuted : exists t p s p' e, wf_accepts t p s p' /\ puml s = Err e.
Proof.
  set (t := odd_text "A.Ping; "). exists t, odd_store, (fst (made t odd_store)), (snd (made t odd_store)), ENoError.
  split; [apply made_accepts; vm_compute; reflexivity | vm_compute; reflexivity].
Qed.
Print Assumptions C72_no_actions_refuted.
