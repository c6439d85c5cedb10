(** Which handler generated TypeScript calls for a message: answers (C100) and
    broadcasts (C101) in the client, requests and beacons in the server (C102). *)
From Coq Require Import String Ascii NArith List Arith Lia Bool.
From Verif Require Import Bytes ProtoModel ProtoInv ProtoService WfModel WfProofs WfServed PropProto PropWf.
From Verif Require Import RenderModel RenderProofs PropRender PropNames TsNames.
Import ListNotations.
Close Scope string_scope.
Open Scope list_scope.
Open Scope nat_scope.

(** ** The files *)

Lemma accepted_uniq : forall pt p t s p', accepts pt p -> wf_accepts t p s p' -> uniq p'.
Proof.
  intros pt p t s p' P H. pose proof (C24_protocol_kept t p s p' H) as K. pose proof (inv_uniq p (accepts_inv pt p P)) as U.
  destruct (w_config s); [destruct K as (a & b & ->); apply services_uniq; exact U | subst p'; exact U].
Qed.

Lemma referenced_found : forall t p s p' r, wf_accepts t p s p' -> referenced s r ->
  exists gs id, find_by_path p' 0 (split_dots r) = Some (gs, id).
Proof.
  intros t p s p' r H R. apply accepted_good in H as (_ & W & _). destruct W as [A B C D _ _ _].
  rewrite Forall_forall in A, B, C.
  assert (K : isdef p' r).
  { destruct R as [x r X E|x r X E|x a r X Y E|x a b X Y Z|x r X E|e r X E N1 N2|e b X Y|b X|c r X E|c r X E].
    - destruct (A _ X) as ((q & Q1 & Q2) & _). congruence.
    - destruct (A _ X) as (_ & Q & _). rewrite E in Q. exact Q.
    - destruct (A _ X) as (_ & _ & _ & Q). rewrite Forall_forall in Q. destruct (Q _ Y) as (_ & (q & Q1 & Q2) & _). congruence.
    - destruct (A _ X) as (_ & _ & _ & Q). rewrite Forall_forall in Q. destruct (Q _ Y) as (_ & _ & Q'). rewrite Forall_forall in Q'.
      exact (Q' _ Z).
    - destruct (A _ X) as (_ & _ & Q & _). rewrite Forall_forall in Q. exact (Q _ E).
    - destruct (B _ X) as ((q & Q1 & Q2) & _). assert (q = r) by congruence. subst q. destruct Q2 as [Q2|Q2]; [|exact Q2].
      unfold default_event in Q2. apply orb_true_iff in Q2 as [Q2|Q2]; apply teqb_iff in Q2; congruence.
    - destruct (B _ X) as (_ & _ & Q). rewrite Forall_forall in Q. exact (Q _ Y).
    - exact (C _ X).
    - destruct (D _ X) as ((k & K1 & K2) & _). congruence.
    - destruct (D _ X) as (_ & (k & K1 & K2) & _). congruence. }
  unfold isdef, defined in K. destruct (find_by_path p' 0 (split_dots r)) as [[gs id]|]; [|discriminate]. eauto.
Qed.

Lemma ts_inj : forall a b, ts_file a = ts_file b -> lower a = lower b.
Proof. intros a b H. unfold ts_file, ts in H. apply app_inv_tail in H. exact H. Qed.

Lemma requests_once : forall (l : list wrequest) r r' q q',
  NoDup (map lower (flat_map (fun r => match rq_ref r with Some q => [q] | None => [] end) l)) ->
  In r l -> In r' l -> rq_ref r = Some q -> rq_ref r' = Some q' -> lower q = lower q' -> r = r'.
Proof.
  induction l as [|x l IH]; intros r r' q q' N R R' Q Q' E; [contradiction|]. cbn [flat_map] in N. rewrite map_app in N.
  assert (K : forall y k, In y l -> rq_ref y = Some k ->
    In (lower k) (map lower (flat_map (fun r => match rq_ref r with Some q => [q] | None => [] end) l))).
  { intros y k Y YK. apply in_map, in_flat_map. exists y. split; [exact Y | rewrite YK; left; reflexivity]. }
  destruct R as [->|R], R' as [->|R']; [reflexivity| | |].
  - rewrite Q in N. cbn [map app] in N. inversion N as [|? ? N1 N2]; subst. elim N1. rewrite E. exact (K _ _ R' Q').
  - rewrite Q' in N. cbn [map app] in N. inversion N as [|? ? N1 N2]; subst. elim N1. rewrite <- E. exact (K _ _ R Q).
  - apply (IH r r' q q'); auto. destruct (rq_ref x) as [k|]; [inversion N; assumption | exact N].
Qed.

(** the client's file for a request *)
Lemma ts_request_final : forall base s p f f' u r q, run base (consumer_ts s p) f = (f', Ok u) ->
  NoDup (map lower (request_refs s)) -> In r (w_requests s) -> rq_ref r = Some q ->
  exists e arms, rq_err r = Some e /\
    (if several r
     then map_res (fun a => do x <- get_action_response a; do c <- get_conclusion a; Ok (split_dots x, lower c)) (rq_actions r)
     else do x <- get_response r; Ok [(split_dots x, txt "response")]) = Ok arms /\
    f' (base ++ [txt "requests"; ts_file q]) = Some (DTsRequest q (arms ++ [(split_dots e, txt "err")])).
Proof.
  intros base s p f f' u r q H N R Q.
  assert (I : In (op_ts_request r) (consumer_ts s p)) by (unfold consumer_ts; apply in_app_iff; left; apply in_map; exact R).
  assert (OP : exists body, op_ts_request r = Put false (Ok [txt "requests"; ts_file q]) body /\
    body = match op_ts_request r with Put _ _ b => b | Merge _ _ => Err ENoError end).
  { eexists. split; [|reflexivity]. unfold op_ts_request, get_request, need. rewrite Q. reflexivity. }
  destruct OP as (body & OP & BD).
  destruct (run_in base false TTypeScript s p [] (consumer_ts s p) [txt "requests"; ts_file q] body f f' u eq_refl H) as (d & B & D).
  - refine (eq_ind _ (fun o => In o (consumer_ts s p)) I _ OP).
  - intros o O F. transitivity (op_ts_request r); [|exact OP]. unfold consumer_ts in O. apply in_app_iff in O as [O|O]; [|exfalso; apply in_app_iff in O as [O|O]].
    + apply in_map_iff in O as (r' & <- & R'). unfold op_ts_request in F. unfold get_request, need in F. cbn [rel_forced] in F.
      destruct (rq_ref r') as [q'|] eqn:Q'; [|discriminate F]. cbn [bind] in F. injection F as F.
      assert (r' = r) as -> by (eapply requests_once; eauto; apply ts_inj; exact F). reflexivity.
    + apply in_map_iff in O as (b & <- & O). discriminate F.
    + destruct O as [<-|[<-|[<-|[<-|[<-|[]]]]]]; discriminate F.
  - rewrite BD in B. unfold op_ts_request in B. unfold get_request, get_err, need in B. rewrite Q in B. cbn [bind] in B.
    destruct (rq_err r) as [e|] eqn:ER; [|discriminate B]. cbn [bind] in B.
    apply bind_ok in B as (arms & A & B). injection B as <-. exists e, arms. auto.
Qed.

(** the client's index *)
Lemma ts_index_final : forall base s p f f' u, run base (consumer_ts s p) f = (f', Ok u) ->
  exists rq, length rq = length (w_requests s) /\
    f' (base ++ [txt "index.ts"]) = Some (DTsIndex "consumer"
      (rq ++ map (fun b => (txt "Beacon" ++ plain_name (bc_ref b), lower (bc_ref b))) (w_beacons s) ++
       map (fun b => (plain_name (bc_ref b), bc_ref b)) (all_broadcasts s))).
Proof.
  intros base s p f f' u H.
  assert (I : In (op_ts_consumer s) (consumer_ts s p)) by (unfold consumer_ts; rewrite !in_app_iff; cbn [In]; tauto).
  unfold op_ts_consumer in I.
  destruct (run_in base false TTypeScript s p [] (consumer_ts s p) [txt "index.ts"] _ f f' u eq_refl H I) as (d & B & D).
  - intros o O F. change (consumer_ts s p) with (plan false s p TTypeScript) in O. cbn [plan consumer_plan] in O.
    plan_all O F; reflexivity.
  - apply bind_ok in B as (k & _ & B). apply bind_ok in B as (rq & RQ & B). injection B as <-. exists rq. split; [|exact D].
    apply map_res_map, (f_equal (@length _)) in RQ. rewrite !map_length in RQ. symmetry. exact RQ.
Qed.

(** the server's main file, indexes and handlers *)
Lemma ts_main_final : forall base s p f f' u, run base (producer_ts s p) f = (f', Ok u) ->
  exists rq ev k hs, map_res (fun r => do q <- get_request r; Ok (split_dots q, ts_handler q)) (w_requests s) = Ok rq /\
    map_res (fun r => do q <- get_request r; Ok (ts_handler q, lower q)) (w_requests s) = Ok hs /\
    f' (base ++ [impl; txt "index.ts"]) =
      Some (DMain rq (map (fun b => (split_dots (bc_ref b), ts_handler (bc_ref b))) (w_beacons s)) ev k []) /\
    f' (base ++ [impl; txt "responses"; txt "index.ts"]) = Some (DTsIndex "responses" hs) /\
    f' (base ++ [impl; txt "beacons"; txt "index.ts"]) =
      Some (DTsIndex "beacons" (map (fun b => (ts_handler (bc_ref b), lower (bc_ref b))) (w_beacons s))).
Proof.
  intros base s p f f' u H.
  pose proof (fun a l q body E => run_in base true TTypeScript s p a l q body f f' u E H) as Q.
  cbn [plan producer_plan] in Q.
  assert (I1 : In (op_ts_main s) (producer_ts s p)) by (unfold producer_ts; rewrite !in_app_iff; cbn [In]; tauto).
  unfold op_ts_main in I1. destruct (Q [] (producer_ts s p) [impl; txt "index.ts"] _ eq_refl I1) as (d1 & B1 & D1).
  { intros o O F. plan_all O F; reflexivity. }
  apply bind_ok in B1 as (rq & RQ & B1). apply bind_ok in B1 as (ev & _ & B1). apply bind_ok in B1 as (k & _ & B1). injection B1 as <-.
  destruct (Q (flat_map (fun r => [op_ts_response r; op_ts_handler r]) (w_requests s)) _ [impl; txt "responses"; txt "index.ts"]
    (match op_ts_handlers_mod (w_requests s) with Put _ _ b => b | Merge _ _ => Err ENoError end) eq_refl) as (d2 & B2 & D2).
  { left. reflexivity. }
  { intros o O F. apply in_app_iff in O as [O|O]; [destruct O as [<-|[]]; reflexivity|]. exfalso.
    plan_all O F; discriminate F. }
  cbn [op_ts_handlers_mod] in B2. apply bind_ok in B2 as (hs & HS & B2). injection B2 as <-.
  destruct (Q (flat_map (fun r => [op_ts_response r; op_ts_handler r]) (w_requests s) ++
    [op_ts_handlers_mod (w_requests s)] ++
    flat_map (fun e => [op_ts_event_impl e; op_ts_event_emitter e]) (w_events s) ++
    [op_ts_event_emitters_mod (w_events s)] ++
    flat_map (fun b => [op_ts_beacon_impl b; op_ts_beacon_emitter b]) (w_beacons s)) _ [impl; txt "beacons"; txt "index.ts"]
    (Ok (DTsIndex "beacons" (map (fun b => (ts_handler (bc_ref b), lower (bc_ref b))) (w_beacons s))))
    ltac:(unfold producer_ts; rewrite <- !app_assoc; reflexivity)) as (d3 & B3 & D3).
  { left. reflexivity. }
  { intros o O F. apply in_app_iff in O as [O|O]; [destruct O as [<-|[<-|[<-|[]]]]; [reflexivity | discriminate F | discriminate F]|].
    exfalso. plan_all O F; discriminate F. }
  injection B3 as <-. exists rq, ev, (split_dots k), hs. auto.
Qed.

Lemma ts_handler_final : forall base s p f f' u r q, run base (producer_ts s p) f = (f', Ok u) ->
  NoDup (map lower (request_refs s)) -> In r (w_requests s) -> rq_ref r = Some q -> lower q <> txt "index" ->
  exists tmpl holes, f' (base ++ [impl; txt "responses"; ts_file q]) = Some (DFill tmpl (q :: holes)).
Proof.
  intros base s p f f' u r q H N R Q NI.
  assert (I : In (op_ts_handler r) (producer_ts s p)).
  { unfold producer_ts. apply in_app_iff. left. apply in_flat_map. exists r. split; [exact R | right; left; reflexivity]. }
  assert (OP : exists body, op_ts_handler r = Put false (Ok [impl; txt "responses"; ts_file q]) body /\
    body = match op_ts_handler r with Put _ _ b => b | Merge _ _ => Err ENoError end).
  { eexists. split; [|reflexivity]. unfold op_ts_handler, get_request, need. rewrite Q. reflexivity. }
  destruct OP as (body & OP & BD).
  destruct (run_in base true TTypeScript s p [] (producer_ts s p) [impl; txt "responses"; ts_file q] body f f' u eq_refl H) as (d & B & D).
  - refine (eq_ind _ (fun o => In o (producer_ts s p)) I _ OP).
  - intros o O F. transitivity (op_ts_handler r); [|exact OP]. unfold producer_ts in O.
    apply in_app_iff in O as [O|O].
    + apply in_flat_map in O as (r' & R' & [<-|[<-|[]]]).
      * discriminate F.
      * unfold op_ts_handler in F. unfold get_request, need in F. cbn [rel_forced] in F.
        destruct (rq_ref r') as [q'|] eqn:Q'; [|discriminate F]. cbn [bind] in F. injection F as F.
        assert (r' = r) as -> by (eapply requests_once; eauto; apply ts_inj; exact F). reflexivity.
    + exfalso. apply in_app_iff in O as [O|O].
      * destruct O as [<-|[]]. cbn [op_ts_handlers_mod rel_forced] in F. injection F as F.
        apply NI. apply (app_inv_tail (txt ".ts")). symmetry. exact F.
      * plan_all O F; discriminate F.
  - rewrite BD in B. unfold op_ts_handler in B. unfold get_request, need in B. rewrite Q in B. cbn [bind] in B.
    destruct (several r).
    + apply bind_ok in B as (l & _ & B). apply bind_ok in B as (e & _ & B). injection B as <-. eexists _, _. exact D.
    + apply bind_ok in B as (x & _ & B). apply bind_ok in B as (e & _ & B). injection B as <-. eexists _, _. exact D.
Qed.

Lemma ts_emitter_final : forall base s p f f' u b, run base (producer_ts s p) f = (f', Ok u) ->
  NoDup (map lower (beacon_refs s)) -> In b (w_beacons s) -> lower (bc_ref b) <> txt "index" ->
  exists tmpl holes, f' (base ++ [impl; txt "beacons"; ts_file (bc_ref b)]) = Some (DFill tmpl (bc_ref b :: holes)).
Proof.
  intros base s p f f' u b H N R NI.
  assert (I : In (op_ts_beacon_emitter b) (producer_ts s p)).
  { unfold producer_ts. do 4 (apply in_app_iff; right). apply in_app_iff. left. apply in_flat_map. exists b.
    split; [exact R | right; left; reflexivity]. }
  unfold op_ts_beacon_emitter in I.
  destruct (run_in base true TTypeScript s p [] (producer_ts s p) [impl; txt "beacons"; ts_file (bc_ref b)]
     (Ok (DFill "beacon emitter" [bc_ref b; lower (bc_ref b)])) f f' u eq_refl H I) as (d & B & D).
  - intros o O F. 
    assert (K : (exists b', In b' (w_beacons s) /\ o = op_ts_beacon_emitter b') \/ o = op_ts_beacon_emitters_mod (w_beacons s)).
    { plan_all O F; try discriminate F; first [right; reflexivity | left; eexists; split; [eassumption | reflexivity]]. }
    destruct K as [(b' & B' & ->)| ->].
    + cbn [op_ts_beacon_emitter rel_forced] in F. injection F as F. apply ts_inj in F.
      assert (bc_ref b' = bc_ref b) as E.
      { clear -N R B' F. unfold beacon_refs in N. rewrite map_map in N. revert N R B'. induction (w_beacons s) as [|x l IH]; intros N R B'; [contradiction|].
        cbn [map] in N. inversion N as [|? ? N1 N2]; subst. destruct R as [->|R], B' as [->|B'].
        - reflexivity.
        - elim N1. rewrite <- F. apply (in_map (fun x => lower (bc_ref x))). exact B'.
        - elim N1. rewrite F. apply (in_map (fun x => lower (bc_ref x))). exact R.
        - exact (IH N2 R B'). }
      unfold op_ts_beacon_emitter. rewrite E. reflexivity.
    + exfalso. cbn [op_ts_beacon_emitters_mod rel_forced] in F. injection F as F.
      apply NI. apply (app_inv_tail (txt ".ts")). symmetry. exact F.
  - injection B as <-. eexists _, _. exact D.
Qed.

(** ** C100: the client reports an answer under its own conclusion *)

(** the handler an answer belongs to: [response] when there is one, otherwise
    the one with the name of the conclusion, in lower case *)
Definition handler_of (r : wrequest) (a : waction) (k : text) : Prop :=
  if length (rq_actions r) <=? 1 then k = txt "response" else exists c, ac_concl a = Some c /\ k = lower c.

(** [m] is any object received for a message of the entity called [x], and [v]
    what was decoded *)
Definition message_of (p : store) (x : text) (v m : js) : Prop :=
  exists id, class_id p x = Some id /\ received p id v m.

Lemma found_message : forall p x gs id v, uniq p -> find_by_path p 0 (split_dots x) = Some (gs, id) ->
  forall m, message_of p x v m <-> m = nest (split_dots x) v.
Proof.
  intros p x gs id v U F m. pose proof (found_received p _ gs id v U F) as R. split.
  - intros (i & I & M). unfold class_id in I. rewrite F in I. injection I as <-. exact (received_once _ _ _ _ _ M R).
  - intros ->. exists id. split; [unfold class_id; rewrite F; reflexivity | exact R].
Qed.

Lemma answered_first : forall arms x v, (forall y k, In (y, k) arms -> y = x \/ reads (nest x v) y = None) ->
  answered arms (nest x v) = match first_arm arms x with Some k => Some (k, v) | None => None end.
Proof.
  induction arms as [|[y k] arms IH]; intros x v H; [reflexivity|]. cbn [answered first_arm].
  destruct (peqb y x) eqn:E.
  - apply peqb_iff in E. subst y. rewrite reads_own. reflexivity.
  - destruct (H y k (or_introl eq_refl)) as [->|Z].
    + rewrite (proj2 (peqb_iff _ _) eq_refl) in E. discriminate.
    + rewrite Z. apply IH. intros y' k' I. apply (H y' k'). right. exact I.
Qed.

Definition tells_apart (p : store) : Prop := clear (proto_key :: object_functions) p.

Theorem C100_answer_reported_partial : forall pt p0 t s p cd pd f f' u c base r,
  accepts pt p0 -> wf_accepts t p0 s p -> render cd pd s p f = (f', Ok u) -> separate cd pd ->
  w_config s = Some c -> part cd pd c false TTypeScript base ->
  NoDup (map lower (request_refs s)) -> tells_apart p -> In r (w_requests s) -> answers_distinct r ->
  exists q arms, rq_ref r = Some q /\ f' (base ++ [txt "requests"; ts_file q]) = Some (DTsRequest q arms) /\
    (forall a x, In a (rq_actions r) -> ac_resp a = Some x -> exists k, handler_of r a k /\
       forall v, (exists m, message_of p x v m) /\ forall m, message_of p x v m -> answered arms m = Some (k, v)) /\
    (forall e, rq_err r = Some e ->
       forall v, (exists m, message_of p e v m) /\ forall m, message_of p e v m -> answered arms m = Some (txt "err", v)) /\
    (forall y, (forall a, In a (rq_actions r) -> ac_resp a <> Some y) -> rq_err r <> Some y ->
       forall v m, message_of p y v m -> answered arms m = None).
Proof.
  intros pt p0 t s p cd pd f f' u c base r P W H S C PT N CL R D.
  pose proof (accepted_uniq _ _ _ _ _ P W) as U.
  destruct (render_part _ _ _ _ _ _ _ _ _ _ _ H S C PT) as (f0 & f1 & RR & A).
  pose proof (C24_complete _ _ _ _ W) as (CR & _). destruct (CR r R) as (RQ & _ & _).
  destruct (rq_ref r) as [q|] eqn:Q; [|congruence].
  destruct (ts_request_final base s p f0 f1 tt r q RR N R Q) as (e & arms & E & ARMS & F).
  exists q, (arms ++ [(split_dots e, txt "err")]). split; [reflexivity|]. split; [rewrite A by discriminate; exact F|].
  (* the arms are the declared answers *)
  destruct D as [D1 D2].
  assert (SPEC : exists h : waction -> text, (forall a, In a (rq_actions r) -> handler_of r a (h a)) /\
    (forall a x, In a (rq_actions r) -> ac_resp a = Some x -> first_arm arms (split_dots x) = Some (h a)) /\
    (forall m, (forall a x, In a (rq_actions r) -> ac_resp a = Some x -> split_dots x <> m) -> first_arm arms m = None) /\
    (forall y k, In (y, k) arms -> exists a x, In a (rq_actions r) /\ ac_resp a = Some x /\ y = split_dots x)).
  { unfold several in ARMS. destruct (1 <? length (rq_actions r)) eqn:L.
    - exists (fun a => match ac_concl a with Some c => lower c | None => [] end).
      assert (G : forall a b, In a (rq_actions r) ->
        (do x <- get_action_response a; do c0 <- get_conclusion a; Ok (split_dots x, lower c0)) = Ok b ->
        exists x, ac_resp a = Some x /\ b = (split_dots x, match ac_concl a with Some c => lower c | None => [] end)).
      { intros a b _ B. unfold get_action_response, get_conclusion, need in B.
        destruct (ac_resp a) as [x|]; [|discriminate B]. destruct (ac_concl a) as [k|]; [|discriminate B].
        cbn [bind] in B. injection B as <-. eauto. }
      split.
      + intros a I. unfold handler_of. apply Nat.ltb_lt in L. rewrite (proj2 (Nat.leb_gt _ _) L).
        destruct (CR r R) as (_ & _ & CC). destruct (CC a I) as (_ & CC2). specialize (CC2 L).
        destruct (ac_concl a) as [k|]; [eauto | congruence].
      + destruct (arms_first _ _ _ _ G ARMS D1) as [A1 A2]. split; [exact A1|]. split; [exact A2|].
        intros y k I. destruct (map_res_in _ _ _ _ _ _ ARMS I) as (a & I1 & I2). destruct (G a _ I1 I2) as (x & X1 & X2).
        injection X2 as -> _. eauto.
    - apply bind_ok in ARMS as (x & X & ARMS). injection ARMS as <-. unfold get_response, need in X.
      destruct (rq_actions r) as [|a [|a' l]] eqn:RA; [discriminate X| |apply Nat.ltb_ge in L; cbn [length] in L; lia].
      destruct (ac_resp a) as [x'|] eqn:AX; [|discriminate X]. injection X as ->.
      exists (fun _ => txt "response"). split; [intros b _; unfold handler_of; rewrite RA; reflexivity|].
      cbn [first_arm]. split; [|split].
      + intros b y [<-|[]] Y. assert (y = x) as -> by congruence. rewrite (proj2 (peqb_iff _ _) eq_refl). reflexivity.
      + intros m M. specialize (M a x (or_introl eq_refl) AX). destruct (peqb (split_dots x) m) eqn:Z; [|reflexivity].
        apply peqb_iff in Z. contradiction.
      + intros y k [I|[]]. injection I as <- _. exists a, x. split; [left; reflexivity | auto]. }
  clear ARMS. destruct SPEC as (h & H1 & H2 & H3 & H4).
  assert (FA : forall a x, In a (rq_actions r) -> ac_resp a = Some x -> exists gs id, find_by_path p 0 (split_dots x) = Some (gs, id))
    by (intros a x I X; exact (referenced_found _ _ _ _ _ W (R_response s r a x R I X))).
  destruct (referenced_found _ _ _ _ _ W (R_error s r e R E)) as (ge & ie & FE).
  assert (AL : forall y k, In (y, k) (arms ++ [(split_dots e, txt "err")]) -> exists i, find_by_path p 0 y = Some i).
  { intros y k I. apply in_app_iff in I as [I|[I|[]]].
    - destruct (H4 y k I) as (a & x & I1 & I2 & ->). destruct (FA a x I1 I2) as (gs & id & F1). eauto.
    - injection I as <- _. eauto. }
  assert (AP : forall x i v, find_by_path p 0 x = Some i -> forall y k, In (y, k) (arms ++ [(split_dots e, txt "err")]) ->
    y = x \/ reads (nest x v) y = None).
  { intros x i v X y k I. destruct (AL y k I) as (j & Y).
    destruct (list_eq_dec (list_eq_dec ascii_dec) y x) as [->|NE]; [left; reflexivity|right].
    apply reads_apart.
    - intro PF. apply NE. symmetry. exact (found_prefix _ p CL x y 0 i j X Y PF).
    - intro PF. apply NE. exact (found_prefix _ p CL y x 0 j i Y X PF).
    - intro K. apply (found_names _ p CL x 0 i X _ K). left. reflexivity.
    - intros n K. exact (found_names _ p CL y 0 j Y n K). }
  split; [|split].
  - intros a x I X. exists (h a). split; [exact (H1 a I)|]. intro v. destruct (FA a x I X) as (gs & id & FX).
    split; [exists (nest (split_dots x) v); apply (found_message p x gs id v U FX); reflexivity|].
    intros m M. apply (found_message p x gs id v U FX) in M. subst m.
    rewrite (answered_first _ _ _ (AP _ _ v FX)), first_arm_app, (H2 a x I X). reflexivity.
  - intros e' E' v. assert (e' = e) as -> by congruence.
    split; [exists (nest (split_dots e) v); apply (found_message p e ge ie v U FE); reflexivity|].
    intros m M. apply (found_message p e ge ie v U FE) in M. subst m.
    rewrite (answered_first _ _ _ (AP _ _ v FE)), first_arm_app, H3.
    + cbn [first_arm]. rewrite (proj2 (peqb_iff _ _) eq_refl). reflexivity.
    + intros a x I X K. apply split_inj in K. subst x. exact (D2 a I (eq_trans X (eq_sym E))).
  - intros y NA NE v m M. destruct (find_by_path p 0 (split_dots y)) as [[gs id]|] eqn:FY.
    + apply (found_message p y gs id v U FY) in M. subst m. rewrite (answered_first _ _ _ (AP _ _ v FY)), first_arm_app, H3.
      * cbn [first_arm]. destruct (peqb (split_dots e) (split_dots y)) eqn:Z; [|reflexivity].
        apply peqb_iff, split_inj in Z. subst y. congruence.
      * intros a x I X K. apply split_inj in K. subst x. exact (NA a I X).
    + destruct M as (i & I & _). unfold class_id in I. rewrite FY in I. discriminate.
Qed.
Print Assumptions C100_answer_reported_partial.

(** *** An example *)

Definition clearb (bad : list text) (p : store) : bool :=
  forallb (fun g => forallb (fun x => negb ((s_parent x =? g_parent g) && teqb (s_name x) (g_name g))) (structs p) &&
                    forallb (fun e => negb ((e_parent e =? g_parent g) && teqb (e_name e) (g_name g))) (enums p)) (groups p) &&
  forallb (fun n => negb (existsb (teqb n) bad)) (map g_name (groups p) ++ map s_name (structs p) ++ map e_name (enums p)).
Lemma clearb_ok : forall bad p, clearb bad p = true -> clear bad p.
Proof.
  intros bad p H. unfold clearb in H. apply andb_true_iff in H as [H1 H2]. rewrite forallb_forall in H1, H2. split.
  - intros g x G X E F. specialize (H1 g G). apply andb_true_iff in H1 as [H1 _]. rewrite forallb_forall in H1. specialize (H1 x X).
    rewrite (proj2 (Nat.eqb_eq _ _) E), (proj2 (teqb_iff _ _) F) in H1. discriminate.
  - intros g x G X E F. specialize (H1 g G). apply andb_true_iff in H1 as [_ H1]. rewrite forallb_forall in H1. specialize (H1 x X).
    rewrite (proj2 (Nat.eqb_eq _ _) E), (proj2 (teqb_iff _ _) F) in H1. discriminate.
  - intros n N. specialize (H2 n N). apply negb_true_iff in H2. apply notinb. exact H2.
Qed.

Definition ts_text (t : string) : text := txt ("&config { Producer: typescript; Consumer: typescript; } " ++ t).
Definition w_package : fs := upd (fun _ => None) [txt "w"; txt "package.json"] (DManifest 7 []).
Definition talk_text : text := ts_text
  "A.Ping !A.E { (Yes > A.R) > M; (No > A.S); } A.B.C !A.E { (AR); } @A.B_C { > A.R; } @beacons { > A.PING; } ".
Definition talk : wstore * store := made talk_text odd_store.
Definition talk_files : fs := fst (render (Some w_client) (Some w_server) (fst talk) (snd talk) w_package).
Definition ping : wrequest := nth 0 (w_requests (fst talk)) (request_new []).
Lemma talk_rendered : wf_accepts talk_text odd_store (fst talk) (snd talk) /\
  render (Some w_client) (Some w_server) (fst talk) (snd talk) w_package = (talk_files, Ok tt).
Proof.
  split; [apply made_accepts; vm_compute; reflexivity|]. apply render_pair. vm_compute. reflexivity.
Qed.

Lemma talk_part : exists c, w_config (fst talk) = Some c /\
  part (Some w_client) (Some w_server) c false TTypeScript w_client /\
  part (Some w_client) (Some w_server) c true TTypeScript w_server.
Proof.
  eexists. split; [vm_compute; reflexivity|]. split; (split; [left; reflexivity | eexists; split; reflexivity]).
Qed.
Lemma talk_clear : tells_apart (snd talk) /\ clear [proto_key] (snd talk).
Proof. split; apply clearb_ok; vm_compute; reflexivity. Qed.
Example C100_example : accepts odd_protocol odd_store /\ In ping (w_requests (fst talk)) /\
  NoDup (map lower (request_refs (fst talk))) /\ length (rq_actions ping) = 2 /\ answers_distinct ping /\
  exists arms, talk_files (w_client ++ [txt "requests"; txt "a.ping.ts"]) = Some (DTsRequest (txt "A.Ping") arms) /\
    length arms = 3.
Proof.
  split; [exact odd_accepted|]. split; [apply nth_In; vm_compute; lia|]. split; [apply nodupb; vm_compute; reflexivity|].
  split; [vm_compute; reflexivity|]. split.
  - split; [vm_compute; repeat constructor; cbn [In]; intuition discriminate|].
    intros a K. vm_compute in K. destruct K as [<-|[<-|[]]]; vm_compute; discriminate.
  - eexists. split; [vm_compute; reflexivity | reflexivity].
Qed.

(** *** What the parsers accept and the client then misreports *)

(** the answer [x] declared for an action of the request [q] goes to the handler
    [k], which is another one's *)
Definition misreported (pt t q x k : text) : Prop :=
  exists p0 s p f f' r a arms v m, accepts pt p0 /\ wf_accepts t p0 s p /\
    render (Some w_client) (Some w_server) s p f = (f', Ok tt) /\ In r (w_requests s) /\ rq_ref r = Some q /\
    In a (rq_actions r) /\ ac_resp a = Some x /\
    f' (w_client ++ [txt "requests"; ts_file q]) = Some (DTsRequest q arms) /\
    message_of p x v m /\ option_map fst (answered arms m) = Some k /\ ~ handler_of r a k.
Definition some_object : js := JObj (fun _ => None).
Definition parsed (pt : text) : store := match parse pt with PAccepted s => s | _ => store_new end.

Ltac misreport pt t n :=
  let w := constr:(made t (parsed pt)) in
  exists (parsed pt), (fst w), (snd w), w_package;
  eexists _, (nth 0 (w_requests (fst w)) (request_new [])),
          (nth n (rq_actions (nth 0 (w_requests (fst w)) (request_new []))) action_new), _, some_object;
  match goal with |- context [message_of _ ?x _ _] => exists (nest (split_dots x) some_object) end;
  split; [vm_compute; reflexivity|]; split; [apply made_accepts; vm_compute; reflexivity|];
  split; [apply render_pair; vm_compute; reflexivity|];
  split; [apply nth_In; vm_compute; lia|]; split; [vm_compute; reflexivity|];
  split; [apply nth_In; vm_compute; lia|]; split; [vm_compute; reflexivity|]; split; [vm_compute; reflexivity|];
  split; [eapply found_message;
          [eapply (accepted_uniq pt (parsed pt) t); [vm_compute; reflexivity | apply made_accepts; vm_compute; reflexivity]
          | vm_compute; reflexivity | reflexivity]|];
  split; [vm_compute; reflexivity|];
  unfold handler_of; vm_compute; intros (c & C & E); injection C as <-; discriminate E.

(** two conclusions with one response *)
Theorem C100_same_response_refuted : exists pt t q x k, misreported pt t q x k.
Proof.
  exists odd_protocol, (ts_text "A.Ping !A.E { (Yes > A.R) > M; (No > A.R); } "), (txt "A.Ping"), (txt "A.R"), (txt "yes").
  misreport odd_protocol (ts_text "A.Ping !A.E { (Yes > A.R) > M; (No > A.R); } ") 1.
Qed.
Print Assumptions C100_same_response_refuted.

(** a struct and a group with one name: the group's object is taken for the struct *)
Definition clash_protocol : text := txt "struct A { u8 a; } group A { struct B { u8 a; } } struct Q { u8 a; } struct E { u8 a; } struct M { u8 a; }".
Theorem C100_group_as_struct_refuted : exists pt t q x k, misreported pt t q x k.
Proof.
  exists clash_protocol, (ts_text "Q !E { (Yes > A); (No > A.B); } "), (txt "Q"), (txt "A.B"), (txt "yes").
  misreport clash_protocol (ts_text "Q !E { (Yes > A); (No > A.B); } ") 1.
Qed.
Print Assumptions C100_group_as_struct_refuted.

(** a struct called like something every object has *)
Definition builtin_protocol : text := txt "struct valueOf { u8 a; } struct Q { u8 a; } struct R { u8 a; } struct E { u8 a; }".
Theorem C100_inherited_name_refuted : exists pt t q x k, misreported pt t q x k.
Proof.
  exists builtin_protocol, (ts_text "Q !E { (Yes > valueOf); (No > R); } "), (txt "Q"), (txt "R"), (txt "yes").
  misreport builtin_protocol (ts_text "Q !E { (Yes > valueOf); (No > R); } ") 1.
Qed.
Print Assumptions C100_inherited_name_refuted.

(** two answers [x] and [y] with different conclusions, or an answer and the error,
    that go to one handler *)
Definition confused (pt t q x y : text) : Prop :=
  exists p0 s p f f' r arms v m m' k, accepts pt p0 /\ wf_accepts t p0 s p /\
    render (Some w_client) (Some w_server) s p f = (f', Ok tt) /\ In r (w_requests s) /\ rq_ref r = Some q /\
    (exists a, In a (rq_actions r) /\ ac_resp a = Some x /\
       (rq_err r = Some y \/ exists b, In b (rq_actions r) /\ ac_resp b = Some y /\ ac_concl b <> ac_concl a)) /\
    f' (w_client ++ [txt "requests"; ts_file q]) = Some (DTsRequest q arms) /\
    message_of p x v m /\ message_of p y v m' /\
    option_map fst (answered arms m) = Some k /\ option_map fst (answered arms m') = Some k.
Ltac message_is pt t :=
  eapply found_message;
    [eapply (accepted_uniq pt (parsed pt) t); [vm_compute; reflexivity | apply made_accepts; vm_compute; reflexivity]
    | vm_compute; reflexivity | reflexivity].
Ltac confuse pt t k declared :=
  let w := constr:(made t (parsed pt)) in
  match goal with |- confused _ _ _ ?x ?y =>
    exists (parsed pt), (fst w), (snd w), w_package;
    eexists _, (nth 0 (w_requests (fst w)) (request_new [])), _, some_object;
    exists (nest (split_dots x) some_object), (nest (split_dots y) some_object), k end;
  split; [vm_compute; reflexivity|]; split; [apply made_accepts; vm_compute; reflexivity|];
  split; [apply render_pair; vm_compute; reflexivity|];
  split; [apply nth_In; vm_compute; lia|]; split; [vm_compute; reflexivity|];
  split; [declared|]; split; [vm_compute; reflexivity|]; split; [message_is pt t|]; split; [message_is pt t|];
  split; vm_compute; reflexivity.

(** conclusions that differ in case only *)
Theorem C100_shared_handler_refuted : exists pt t q x y, confused pt t q x y.
Proof.
  exists odd_protocol, (ts_text "A.Ping !A.E { (Yes > A.R); (YES > A.S); } "), (txt "A.Ping"), (txt "A.R"), (txt "A.S").
  confuse odd_protocol (ts_text "A.Ping !A.E { (Yes > A.R); (YES > A.S); } ") (txt "yes")
    ltac:(vm_compute; eexists; split; [left; reflexivity|]; split; [reflexivity|]; right; eexists; split; [right; left; reflexivity|];
          split; [reflexivity | discriminate]).
Qed.
Print Assumptions C100_shared_handler_refuted.
(** a conclusion called [Err] *)
Theorem C100_err_handler_refuted : exists pt t q x y, confused pt t q x y.
Proof.
  exists odd_protocol, (ts_text "A.Ping !A.E { (Err > A.R); (No > A.S); } "), (txt "A.Ping"), (txt "A.R"), (txt "A.E").
  confuse odd_protocol (ts_text "A.Ping !A.E { (Err > A.R); (No > A.S); } ") (txt "err")
    ltac:(vm_compute; eexists; split; [left; reflexivity|]; split; [reflexivity|]; left; reflexivity).
Qed.
Print Assumptions C100_err_handler_refuted.

(** ** C101: the client announces a broadcast on its own subject *)

Lemma cast_listed : forall s r, In r (cast_refs s) -> exists b, In b (all_broadcasts s) /\ bc_ref b = r.
Proof.
  intros s r R. unfold cast_refs in R. unfold all_broadcasts. apply in_map_iff in R as (b & <- & B).
  revert B. generalize (flat_map (fun r => flat_map ac_bcs (rq_actions r)) (w_requests s) ++ flat_map ev_list (w_events s)) as l.
  assert (K : forall l acc b, (In b l \/ exists x, In x acc /\ bc_ref x = bc_ref b) ->
    exists x, In x (fold_left add_new l acc) /\ bc_ref x = bc_ref b).
  { induction l as [|y l IH]; intros acc b0 H; cbn [fold_left].
    - destruct H as [[]|H]. exact H.
    - apply IH. destruct H as [[->|H]|(x & X & E)]; [right|left; exact H|right].
      + unfold add_new. destruct (existsb _ acc) eqn:Z.
        * apply existsb_exists in Z as (x & X & E). apply teqb_iff in E. eauto.
        * exists b0. split; [apply in_app_iff; right; left; reflexivity | reflexivity].
      + unfold add_new. destruct (existsb _ acc); exists x; (split; [|exact E]); [exact X | apply in_app_iff; left; exact X]. }
  intros l B. apply (K l [] b). left. exact B.
Qed.

Lemma class_once : forall p r r' i, uniq p -> class_id p r = Some i -> class_id p r' = Some i -> r = r'.
Proof.
  intros p r r' i U A B. unfold class_id in A, B.
  destruct (find_by_path p 0 (split_dots r)) as [[gs j]|] eqn:X; [|discriminate]. cbn [option_map snd] in A. injection A as ->.
  destruct (find_by_path p 0 (split_dots r')) as [[gs' j]|] eqn:Y; [|discriminate]. cbn [option_map snd] in B. injection B as ->.
  apply split_inj. exact (found_once p _ _ _ _ _ U X Y).
Qed.

Lemma struct_ref : forall p x, uniq p -> In x (structs p) -> ref_id p (s_id x) = Some (s_id x).
Proof.
  intros p x U X. unfold ref_id. destruct (find _ (enums p)) as [e|] eqn:F.
  - exfalso. apply find_some in F as [E F]. apply Nat.eqb_eq in F. pose proof (cnt_parts p U (s_id x)) as C.
    assert (0 < count_occ Nat.eq_dec (map e_id (enums p)) (s_id x)) by (rewrite <- F; apply (count_occ_In Nat.eq_dec), in_map, E).
    assert (0 < count_occ Nat.eq_dec (map s_id (structs p)) (s_id x)) by (apply (count_occ_In Nat.eq_dec), in_map, X).
    lia.
  - destruct (find _ (structs p)) as [y|] eqn:F2.
    + apply find_some in F2 as [_ F2]. apply Nat.eqb_eq in F2. cbn [option_map]. congruence.
    + apply (find_none _ _ F2) in X. rewrite Nat.eqb_refl in X. discriminate.
Qed.

(** a message of the struct [x] for which no call is waiting *)
Theorem C101_broadcast_emitted_partial : forall pt p0 t s p cd pd f f' u c base,
  accepts pt p0 -> wf_accepts t p0 s p -> render cd pd s p f = (f', Ok u) -> separate cd pd ->
  w_config s = Some c -> part cd pd c false TTypeScript base ->
  exists exports, f' (base ++ [txt "index.ts"]) = Some (DTsIndex "consumer" exports) /\
    forall x, In x (structs p) ->
      (forall r, In r (cast_refs s) -> class_id p r = Some (s_id x) ->
         unexpected p (cases_of s exports) (s_id x) = Emitted (plain_name r)) /\
      ((forall r, In r (cast_refs s) -> class_id p r <> Some (s_id x)) ->
         unexpected p (cases_of s exports) (s_id x) = Warned).
Proof.
  intros pt p0 t s p cd pd f f' u c base P W H S C PT. pose proof (accepted_uniq _ _ _ _ _ P W) as U.
  destruct (render_part _ _ _ _ _ _ _ _ _ _ _ H S C PT) as (f0 & f1 & RR & A).
  destruct (ts_index_final base s p f0 f1 tt RR) as (rq & L & F). eexists. rewrite A by discriminate. split; [exact F|].
  assert (CS : cases_of s (rq ++ map (fun b => (txt "Beacon" ++ plain_name (bc_ref b), lower (bc_ref b))) (w_beacons s) ++
       map (fun b => (plain_name (bc_ref b), bc_ref b)) (all_broadcasts s)) = map (fun b => (plain_name (bc_ref b), bc_ref b)) (all_broadcasts s)).
  { unfold cases_of. rewrite app_assoc, <- L, <- (map_length (fun b => (txt "Beacon" ++ plain_name (bc_ref b), lower (bc_ref b))) (w_beacons s)),
      <- app_length. rewrite skipn_app, skipn_all, Nat.sub_diag. reflexivity. }
  intros x X. rewrite CS. unfold unexpected. rewrite (struct_ref p x U X). split.
  - intros r R D. destruct (cast_listed s r R) as (b & B & <-). clear -U B D.
    induction (all_broadcasts s) as [|b' l IH]; [contradiction|]. cbn [map switch].
    destruct (class_id p (bc_ref b')) as [i|] eqn:CI.
    + destruct (i =? s_id x) eqn:E.
      * apply Nat.eqb_eq in E. subst i. rewrite (class_once p _ _ _ U CI D). reflexivity.
      * destruct B as [->|B]; [|exact (IH B)]. rewrite D in CI. injection CI as <-. rewrite Nat.eqb_refl in E. discriminate.
    + destruct B as [->|B]; [congruence | exact (IH B)].
  - intro N. assert (N' : forall b, In b (all_broadcasts s) -> class_id p (bc_ref b) <> Some (s_id x))
      by (intros b B; apply N; apply all_broadcasts_refs; exact B).
    clear -N'. induction (all_broadcasts s) as [|b' l IH]; [reflexivity|]. cbn [map switch].
    pose proof (N' b' (or_introl eq_refl)) as NB. destruct (class_id p (bc_ref b')) as [i|].
    + destruct (i =? s_id x) eqn:E; [apply Nat.eqb_eq in E; subst i; congruence|]. apply IH. intros b B. apply N'. right. exact B.
    + apply IH. intros b B. apply N'. right. exact B.
Qed.
Print Assumptions C101_broadcast_emitted_partial.

(** the example has two broadcasts, both of them structs *)
Example C101_example : cast_refs (fst talk) = [txt "M"; txt "A.R"] /\
  (forall r, In r (cast_refs (fst talk)) -> exists x, In x (structs (snd talk)) /\ class_id (snd talk) r = Some (s_id x)) /\
  exists exports, talk_files (w_client ++ [txt "index.ts"]) = Some (DTsIndex "consumer" exports) /\
    map (unexpected (snd talk) (cases_of (fst talk) exports)) (map s_id (structs (snd talk))) <>
      map (fun _ => Warned) (structs (snd talk)).
Proof.
  split; [vm_compute; reflexivity|]. split.
  - assert (K : forallb (fun r => existsb (fun x => match class_id (snd talk) r with Some i => i =? s_id x | None => false end) (structs (snd talk)))
      (cast_refs (fst talk)) = true) by (vm_compute; reflexivity).
    intros r R. rewrite forallb_forall in K. specialize (K r R). apply existsb_exists in K as (x & X & K). exists x. split; [exact X|].
    destruct (class_id (snd talk) r) as [i|]; [|discriminate K]. apply Nat.eqb_eq in K. exact (f_equal Some K).
  - eexists. split; [vm_compute; reflexivity|]. vm_compute. discriminate.
Qed.

(** The parser also takes an enum for a broadcast; every such message makes the
    client throw. *)
Theorem C101_enum_broadcast_refuted : exists pt p0 t s p f f' r id exports, accepts pt p0 /\ wf_accepts t p0 s p /\
  render (Some w_client) (Some w_server) s p f = (f', Ok tt) /\ In r (cast_refs s) /\ class_id p r = Some id /\
  f' (w_client ++ [txt "index.ts"]) = Some (DTsIndex "consumer" exports) /\
  unexpected p (cases_of s exports) id = Thrown.
Proof.
  set (t := ts_text "@A.Ping { > A.K; } ").
  exists odd_protocol, odd_store, t, (fst (made t odd_store)), (snd (made t odd_store)), w_package. eexists. exists (txt "A.K"). eexists _, _.
  split; [exact odd_accepted|]. split; [apply made_accepts; vm_compute; reflexivity|].
  split; [apply render_pair; vm_compute; reflexivity|]. split; [vm_compute; tauto|]. split; [vm_compute; reflexivity|].
  split; vm_compute; reflexivity.
Qed.
Print Assumptions C101_enum_broadcast_refuted.

(** and two broadcasts whose names only differ in the place of the dots have one
    subject *)
Theorem C101_shared_subject_refuted : exists pt p0 t s p f f' x y r r' exports k, accepts pt p0 /\ wf_accepts t p0 s p /\
  render (Some w_client) (Some w_server) s p f = (f', Ok tt) /\ In r (cast_refs s) /\ In r' (cast_refs s) /\
  In x (structs p) /\ In y (structs p) /\ class_id p r = Some (s_id x) /\ class_id p r' = Some (s_id y) /\ s_id x <> s_id y /\
  f' (w_client ++ [txt "index.ts"]) = Some (DTsIndex "consumer" exports) /\
  unexpected p (cases_of s exports) (s_id x) = Emitted k /\ unexpected p (cases_of s exports) (s_id y) = Emitted k.
Proof.
  set (t := ts_text "@A.Ping { > A.R; > AR; } ").
  set (p := snd (made t odd_store)).
  exists odd_protocol, odd_store, t, (fst (made t odd_store)), p, w_package. eexists.
  exists (match find (fun x => teqb (s_name x) (txt "R")) (structs p) with Some x => x | None => hd (mkStruct 0 0 [] [] []) (structs p) end),
         (match find (fun x => teqb (s_name x) (txt "AR")) (structs p) with Some x => x | None => hd (mkStruct 0 0 [] [] []) (structs p) end),
         (txt "A.R"), (txt "AR").
  eexists. exists (txt "AR"). subst p.
  split; [exact odd_accepted|]. split; [apply made_accepts; vm_compute; reflexivity|].
  split; [apply render_pair; vm_compute; reflexivity|]. split; [vm_compute; tauto|]. split; [vm_compute; tauto|].
  split; [vm_compute; tauto|]. split; [vm_compute; tauto|]. split; [vm_compute; reflexivity|]. split; [vm_compute; reflexivity|].
  split; [vm_compute; discriminate|]. split; [vm_compute; reflexivity|]. split; vm_compute; reflexivity.
Qed.
Print Assumptions C101_shared_subject_refuted.

(** ** C102: the server calls the handler declared for the message *)

Definition hash_request : text := txt "InternalServiceGroup.HashRequest".

Lemma hash_found : forall t p0 s p c, wf_accepts t p0 s p -> w_config s = Some c ->
  exists i, find_by_path p 0 (split_dots hash_request) = Some i.
Proof.
  intros t p0 s p c W C. pose proof (C24_protocol_kept t p0 s p W) as K. rewrite C in K. destruct K as (a & b & ->).
  assert (D : defined (add_services p0 (service_list a b)) hash_request = true).
  { unfold add_services, service_list. rewrite !fold_left_app. cbn [fold_left fst snd].
    do 3 (eapply defined_grows; [apply service_grows|]). apply (service_defined _ "HashRequest"). vm_compute. intuition discriminate. }
  unfold defined in D. destruct (find_by_path _ 0 (split_dots hash_request)) as [i|]; [eauto | discriminate D].
Qed.

Lemma picked_first : forall table x g, (forall y k, In (y, k) table -> y = x \/ tries (nest x (JObj g)) y = None) ->
  picked table (nest x (JObj g)) = match first_arm table x with Some k => Some (k, JObj g) | None => None end.
Proof.
  induction table as [|[y k] table IH]; intros x g H; [reflexivity|]. cbn [picked first_arm].
  destruct (peqb y x) eqn:E.
  - apply peqb_iff in E. subst y. rewrite tries_own. reflexivity.
  - destruct (H y k (or_introl eq_refl)) as [->|Z].
    + rewrite (proj2 (peqb_iff _ _) eq_refl) in E. discriminate.
    + rewrite Z. apply IH. intros y' k' I. apply (H y' k'). right. exact I.
Qed.

(** a table made from references *)
Lemma table_first : forall l x, first_arm (map (fun q => (split_dots q, ts_handler q)) l) (split_dots x) =
  if existsb (teqb x) l then Some (ts_handler x) else None.
Proof.
  induction l as [|q l IH]; intro x; [reflexivity|]. cbn [map first_arm existsb].
  destruct (peqb (split_dots q) (split_dots x)) eqn:E.
  - apply peqb_iff, split_inj in E. subst q. rewrite (proj2 (teqb_iff x x) eq_refl). reflexivity.
  - rewrite IH. destruct (teqb x q) eqn:T; [|reflexivity]. apply teqb_iff in T. subst q.
    rewrite (proj2 (peqb_iff _ _) eq_refl) in E. discriminate.
Qed.

Lemma request_table : forall (B : Type) (g : text -> B) l bs, map_res (fun r => do q <- get_request r; Ok (g q)) l = Ok bs ->
  bs = map g (flat_map (fun r => match rq_ref r with Some q => [q] | None => [] end) l).
Proof.
  intros B g. induction l as [|r l IH]; intros bs H; cbn [map_res] in H; [injection H as <-; reflexivity|].
  apply bind_ok in H as (x & X & H). apply bind_ok in H as (xs & XS & H). injection H as <-. cbn [flat_map].
  unfold get_request, need in X. destruct (rq_ref r) as [q|]; [|discriminate X]. cbn [bind] in X. injection X as <-.
  cbn [app map]. rewrite (IH xs XS). reflexivity.
Qed.

Lemma request_ref_in : forall s r, In r (request_refs s) -> exists x, In x (w_requests s) /\ rq_ref x = Some r.
Proof.
  intros s r R. unfold request_refs in R. apply in_flat_map in R as (x & X & R). exists x. split; [exact X|].
  destruct (rq_ref x) as [q|]; [|contradiction]. destruct R as [->|[]]. reflexivity.
Qed.

Theorem C102_handler_called_partial : forall pt p0 t s p cd pd f f' u c base,
  accepts pt p0 -> wf_accepts t p0 s p -> render cd pd s p f = (f', Ok u) -> separate cd pd ->
  w_config s = Some c -> part cd pd c true TTypeScript base -> clear [proto_key] p ->
  exists rq bc ev k, f' (base ++ [impl; txt "index.ts"]) = Some (DMain rq bc ev k []) /\
    (forall r g, In r (request_refs s) -> r <> hash_request -> (exists m, message_of p r (JObj g) m) /\
       forall m, message_of p r (JObj g) m -> serve rq bc m = ByResponse (ts_handler r) (JObj g)) /\
    (forall r g, In r (beacon_refs s) -> r <> hash_request -> (exists m, message_of p r (JObj g) m) /\
       forall m, message_of p r (JObj g) m -> serve rq bc m = ByBeacon (ts_handler r) (JObj g)) /\
    (forall y g m, ~ In y (request_refs s) -> ~ In y (beacon_refs s) -> y <> hash_request ->
       message_of p y (JObj g) m -> serve rq bc m = Unknown).
Proof.
  intros pt p0 t s p cd pd f f' u c base P W H S C PT CL. pose proof (accepted_uniq _ _ _ _ _ P W) as U.
  destruct (render_part _ _ _ _ _ _ _ _ _ _ _ H S C PT) as (f0 & f1 & RR & A).
  destruct (ts_main_final base s p f0 f1 tt RR) as (rq & ev & k & hs & RQ & _ & F & _ & _).
  apply (request_table _ (fun q => (split_dots q, ts_handler q))) in RQ. fold (request_refs s) in RQ.
  assert (BC : map (fun b => (split_dots (bc_ref b), ts_handler (bc_ref b))) (w_beacons s) =
    map (fun q => (split_dots q, ts_handler q)) (beacon_refs s)) by (unfold beacon_refs; rewrite map_map; reflexivity).
  rewrite BC in F. subst rq. eexists _, _, ev, k. rewrite A by discriminate. split; [exact F|]. clear F BC.
  destruct (hash_found t p0 s p c W C) as (ih & FH).
  assert (FR : forall r, In r (request_refs s) -> exists gs i, find_by_path p 0 (split_dots r) = Some (gs, i)).
  { intros r R. destruct (request_ref_in s r R) as (x & X & E). exact (referenced_found _ _ _ _ _ W (R_request s x r X E)). }
  assert (FB : forall r, In r (beacon_refs s) -> exists gs i, find_by_path p 0 (split_dots r) = Some (gs, i)).
  { intros r R. unfold beacon_refs in R. apply in_map_iff in R as (b & <- & B).
    exact (referenced_found _ _ _ _ _ W (R_beacon s b B)). }
  assert (AP : forall x i y j g, find_by_path p 0 x = Some i -> find_by_path p 0 y = Some j -> y = x \/ tries (nest x (JObj g)) y = None).
  { intros x i y j g X Y. destruct (list_eq_dec (list_eq_dec ascii_dec) y x) as [->|NE]; [left; reflexivity|right].
    apply tries_apart.
    - intro PF. apply NE. symmetry. exact (found_prefix _ p CL x y 0 i j X Y PF).
    - intro PF. apply NE. exact (found_prefix _ p CL y x 0 j i Y X PF).
    - intro K. apply (found_names _ p CL x 0 i X _ K). left. reflexivity.
    - intro K. apply (found_names _ p CL y 0 j Y _ K). left. reflexivity. }
  assert (TB : forall l x i g, (forall r, In r l -> exists gs i, find_by_path p 0 (split_dots r) = Some (gs, i)) ->
    find_by_path p 0 (split_dots x) = Some i ->
    picked (map (fun q => (split_dots q, ts_handler q)) l) (nest (split_dots x) (JObj g)) =
      if existsb (teqb x) l then Some (ts_handler x, JObj g) else None).
  { intros l x i g FL X. rewrite picked_first.
    - rewrite table_first. destruct (existsb (teqb x) l); reflexivity.
    - intros y h I. apply in_map_iff in I as (q & E & I). injection E as <- _. destruct (FL q I) as (gs & j & Y).
      exact (AP _ _ _ _ g X Y). }
  assert (HS : forall x i g, find_by_path p 0 (split_dots x) = Some i -> x <> hash_request ->
    tries (nest (split_dots x) (JObj g)) (map txt ["InternalServiceGroup"; "HashRequest"]%string) = None).
  { intros x i g X N. change (map txt ["InternalServiceGroup"; "HashRequest"]%string) with (split_dots hash_request).
    destruct (AP _ _ _ _ g X FH) as [E|E]; [apply split_inj in E; congruence | exact E]. }
  assert (EX : forall x l, In x l -> existsb (teqb x) l = true)
    by (intros x l I; apply existsb_exists; exists x; split; [exact I | apply teqb_iff; reflexivity]).
  assert (NX : forall x l, ~ In x l -> existsb (teqb x) l = false).
  { intros x l I. destruct (existsb (teqb x) l) eqn:E; [|reflexivity]. apply existsb_exists in E as (y & Y & E).
    apply teqb_iff in E. subst y. contradiction. }
  split; [|split].
  - intros r g R N. destruct (FR r R) as (gs & i & X).
    split; [exists (nest (split_dots r) (JObj g)); apply (found_message p r gs i _ U X); reflexivity|].
    intros m M. apply (found_message p r gs i _ U X) in M. subst m. unfold serve.
    rewrite (HS r _ g X N), (TB _ r _ g FR X), (EX r _ R). reflexivity.
  - intros r g R N. destruct (FB r R) as (gs & i & X).
    split; [exists (nest (split_dots r) (JObj g)); apply (found_message p r gs i _ U X); reflexivity|].
    intros m M. apply (found_message p r gs i _ U X) in M. subst m. unfold serve.
    rewrite (HS r _ g X N), (TB _ r _ g FR X), NX, (TB _ r _ g FB X), (EX r _ R); [reflexivity|].
    intro K. destruct (request_ref_in s r K) as (x & X1 & X2). unfold beacon_refs in R. apply in_map_iff in R as (b & B1 & B2).
    pose proof (C25_unique _ _ _ _ W) as (_ & _ & _ & DJ). apply (DJ b x B2 X1). congruence.
  - intros y g m N1 N2 N3 (i & I & M). unfold class_id in I.
    destruct (find_by_path p 0 (split_dots y)) as [[gs j]|] eqn:X; [|discriminate I]. cbn [option_map snd] in I. injection I as ->.
    rewrite (received_once _ _ _ _ _ M (found_received p _ gs i _ U X)). unfold serve.
    rewrite (HS y _ g X N3), (TB _ y _ g FR X), (NX _ _ N1), (TB _ y _ g FB X), (NX _ _ N2). reflexivity.
Qed.
Print Assumptions C102_handler_called_partial.

(** the name called is exported by the index once, from the file made for the
    request *)
Theorem C102_handler_exported_partial : forall pt p0 t s p cd pd f f' u c base,
  accepts pt p0 -> wf_accepts t p0 s p -> render cd pd s p f = (f', Ok u) -> separate cd pd ->
  w_config s = Some c -> part cd pd c true TTypeScript base ->
  (NoDup (map lower (request_refs s)) -> NoDup (map ts_handler (request_refs s)) ->
   exists hs, f' (base ++ [impl; txt "responses"; txt "index.ts"]) = Some (DTsIndex "responses" hs) /\
     forall r, In r (request_refs s) -> lower r <> txt "index" ->
       (forall file, In (ts_handler r, file) hs <-> file = lower r) /\
       exists tmpl holes, f' (base ++ [impl; txt "responses"; lower r ++ txt ".ts"]) = Some (DFill tmpl (r :: holes))) /\
  (NoDup (map lower (beacon_refs s)) -> NoDup (map ts_handler (beacon_refs s)) ->
   exists hs, f' (base ++ [impl; txt "beacons"; txt "index.ts"]) = Some (DTsIndex "beacons" hs) /\
     forall r, In r (beacon_refs s) -> lower r <> txt "index" ->
       (forall file, In (ts_handler r, file) hs <-> file = lower r) /\
       exists tmpl holes, f' (base ++ [impl; txt "beacons"; lower r ++ txt ".ts"]) = Some (DFill tmpl (r :: holes))).
Proof.
  intros pt p0 t s p cd pd f f' u c base P W H S C PT.
  destruct (render_part _ _ _ _ _ _ _ _ _ _ _ H S C PT) as (f0 & f1 & RR & A).
  destruct (ts_main_final base s p f0 f1 tt RR) as (rq & ev & k & hs & _ & HS & _ & F1 & F2).
  apply (request_table _ (fun q => (ts_handler q, lower q))) in HS. fold (request_refs s) in HS. subst hs.
  assert (ONE : forall l r, NoDup (map ts_handler l) -> In r l ->
    forall file, In (ts_handler r, file) (map (fun q => (ts_handler q, lower q)) l) <-> file = lower r).
  { intros l r N R file. split.
    - intro I. apply in_map_iff in I as (q & E & Q). injection E as E <-. f_equal.
      revert N R Q. clear -E. induction l as [|x l IH]; intros N R Q; [contradiction|]. cbn [map] in N. inversion N as [|? ? N1 N2]; subst.
      destruct R as [->|R], Q as [->|Q].
      + reflexivity.
      + elim N1. rewrite <- E. apply in_map. exact Q.
      + elim N1. rewrite E. apply in_map. exact R.
      + exact (IH N2 R Q).
    - intros ->. apply in_map_iff. exists r. split; [reflexivity | exact R]. }
  split.
  - intros N1 N2. eexists. rewrite A by discriminate. split; [exact F1|]. intros r R NI. split; [exact (ONE _ r N2 R)|].
    destruct (request_ref_in s r R) as (x & X & E). destruct (ts_handler_final base s p f0 f1 tt x r RR N1 X E NI) as (tm & ho & F).
    exists tm, ho. rewrite A by discriminate. exact F.
  - intros N1 N2. eexists. rewrite A by discriminate. split; [exact F2|]. intros r R NI. split.
    + pose proof (ONE _ r N2 R) as O. unfold beacon_refs in O. rewrite map_map in O. exact O.
    + pose proof R as R'. unfold beacon_refs in R'. apply in_map_iff in R' as (b & <- & B).
      destruct (ts_emitter_final base s p f0 f1 tt b RR N1 B NI) as (tm & ho & F).
      exists tm, ho. rewrite A by discriminate. exact F.
Qed.
Print Assumptions C102_handler_exported_partial.

Example C102_example : request_refs (fst talk) = [txt "A.Ping"; txt "A.B.C"] /\ beacon_refs (fst talk) = [txt "A.PING"] /\
  (forall r, In r (request_refs (fst talk) ++ beacon_refs (fst talk)) -> r <> hash_request /\ lower r <> txt "index") /\
  NoDup (map lower (request_refs (fst talk))) /\ NoDup (map ts_handler (request_refs (fst talk))) /\
  NoDup (map lower (beacon_refs (fst talk))) /\ NoDup (map ts_handler (beacon_refs (fst talk))) /\
  exists rq bc ev k, talk_files (w_server ++ [impl; txt "index.ts"]) = Some (DMain rq bc ev k []).
Proof.
  split; [vm_compute; reflexivity|]. split; [vm_compute; reflexivity|]. split.
  - intros r R. assert (E : request_refs (fst talk) ++ beacon_refs (fst talk) = [txt "A.Ping"; txt "A.B.C"; txt "A.PING"]) by (vm_compute; reflexivity).
    rewrite E in R. destruct R as [<-|[<-|[<-|[]]]]; split; vm_compute; discriminate.
  - split; [apply nodupb; vm_compute; reflexivity|]. split; [apply nodupb; vm_compute; reflexivity|].
    split; [apply nodupb; vm_compute; reflexivity|]. split; [apply nodupb; vm_compute; reflexivity|].
    eexists _, _, _, _. vm_compute. reflexivity.
Qed.

(** *** What the parsers accept and the server then does *)

(** a message [y] that is no request is served as the request [q] *)
Theorem C102_group_as_request_refuted : exists pt p0 t s p f f' q y rq bc ev k v m h body,
  accepts pt p0 /\ wf_accepts t p0 s p /\ render (Some w_client) (Some w_server) s p f = (f', Ok tt) /\
  request_refs s = [q] /\ beacon_refs s = [] /\ y <> q /\
  f' (w_server ++ [impl; txt "index.ts"]) = Some (DMain rq bc ev k []) /\
  message_of p y v m /\ serve rq bc m = ByResponse h body /\ h = ts_handler q.
Proof.
  set (t := ts_text "A !E { (Q); } ").
  exists clash_protocol, (parsed clash_protocol), t, (fst (made t (parsed clash_protocol))), (snd (made t (parsed clash_protocol))), w_package.
  eexists. exists (txt "A"), (txt "A.B"). eexists _, _, _, _. exists some_object, (nest (split_dots (txt "A.B")) some_object). eexists _, _.
  split; [vm_compute; reflexivity|]. split; [apply made_accepts; vm_compute; reflexivity|].
  split; [apply render_pair; vm_compute; reflexivity|]. split; [vm_compute; reflexivity|]. split; [vm_compute; reflexivity|].
  split; [discriminate|]. split; [vm_compute; reflexivity|]. split; [message_is clash_protocol t|].
  split; [vm_compute; reflexivity | vm_compute; reflexivity].
Qed.
Print Assumptions C102_group_as_request_refuted.

(** two requests whose names only differ in the place of the dots: one exported
    name for two handlers *)
Theorem C102_shared_handler_refuted : exists pt p0 t s p f f' hs h a b, accepts pt p0 /\ wf_accepts t p0 s p /\
  render (Some w_client) (Some w_server) s p f = (f', Ok tt) /\
  f' (w_server ++ [impl; txt "responses"; txt "index.ts"]) = Some (DTsIndex "responses" hs) /\
  In (h, a) hs /\ In (h, b) hs /\ a <> b.
Proof.
  set (t := ts_text "A.R !A.E { (A.S); } AR !A.E { (M); } ").
  exists odd_protocol, odd_store, t, (fst (made t odd_store)), (snd (made t odd_store)), w_package. eexists _, _.
  exists (txt "aRHandler"), (txt "a.r"), (txt "ar").
  split; [exact odd_accepted|]. split; [apply made_accepts; vm_compute; reflexivity|].
  split; [apply render_pair; vm_compute; reflexivity|]. split; [vm_compute; reflexivity|].
  split; [left; reflexivity|]. split; [right; left; reflexivity | discriminate].
Qed.
Print Assumptions C102_shared_handler_refuted.

(** the file of a request called [Index] is the index itself: its handler is lost *)
Definition index_protocol : text := txt "struct Index { u8 a; } struct R { u8 a; } struct E { u8 a; } ".
Theorem C102_index_lost_refuted : exists pt p0 t s p f f' r, accepts pt p0 /\ wf_accepts t p0 s p /\
  render (Some w_client) (Some w_server) s p f = (f', Ok tt) /\ In r (request_refs s) /\
  forall tmpl holes, f' (w_server ++ [impl; txt "responses"; lower r ++ txt ".ts"]) <> Some (DFill tmpl (r :: holes)).
Proof.
  set (t := ts_text "Index !E { (R); } ").
  exists index_protocol, (parsed index_protocol), t, (fst (made t (parsed index_protocol))), (snd (made t (parsed index_protocol))), w_package.
  eexists. exists (txt "Index").
  split; [vm_compute; reflexivity|]. split; [apply made_accepts; vm_compute; reflexivity|].
  split; [apply render_pair; vm_compute; reflexivity|]. split; [vm_compute; tauto|]. intros tmpl holes. vm_compute. discriminate.
Qed.
Print Assumptions C102_index_lost_refuted.
