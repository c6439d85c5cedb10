(** Properties C23-C25, C60-C62: workflow files. *)
From Coq Require Import String Ascii NArith List Arith Lia Bool.
From Verif Require Import Bytes ProtoModel ProtoProofs ProtoInv ProtoRun ProtoTypes ProtoService
  ProtoGrammar WfModel WfProofs WfGrammar WfElab WfServed PropProto.
Import ListNotations.
Close Scope string_scope.
Open Scope list_scope.
Open Scope nat_scope.

(** [t] is accepted beside the protocol [p]; [p'] is the protocol afterwards *)
Definition wf_accepts (t : text) (p : store) (s : wstore) (p' : store) : Prop :=
  exists fuel, wparse fuel t p = WAccepted s p'.
Definition wf_rejects (t : text) (p : store) : Prop := exists fuel, wparse fuel t p = WRejected.

(** examples/prot/protocol.prot, without fields *)
Definition chat_protocol : text := txt "
group Identification { struct SelfKey { str uuid?; } struct AssignedKey { str uuid?; } }
group Events { struct UserConnected { str uuid; } struct UserDisconnected { str uuid; } struct Message { str uuid; } }
group Beacons { struct LikeUser { str uuid; } struct LikeMessage { str uuid; } }
group ServerEvents { struct UserKickOff { str uuid; } struct UserAlert { str uuid; } }
group Message { struct Request { str user; } struct Accepted { str uuid; } struct Denied { str reason; } struct Err { str error; } }
group Messages { struct Request { } struct Response { str x; } struct Err { str error; } }
group UserLogin { struct Request { str username; } struct Accepted { str uuid; } struct Denied { str reason; } struct Err { str error; } }
group Users { struct Request { } struct Response { str x; } struct Err { str error; } }
".
Definition chat_store : store := Eval vm_compute in match parse chat_protocol with PAccepted s => s | _ => store_new end.
Example chat_store_accepted : accepts chat_protocol chat_store /\ length (structs chat_store) = 23.
Proof. split; vm_compute; reflexivity. Qed.

(** examples/prot/protocol-rs-rs.workflow *)
Definition chat_workflow : text := txt "&config {
   SelfKey: Identification.SelfKey;
   AssignedKey: Identification.AssignedKey;
   Producer: rust;
   Consumer: rust;
}

UserLogin.Request !UserLogin.Err {
   (Accept    > UserLogin.Accepted) > Events.UserConnected;
                                    > Events.Message;
   (Deny      > UserLogin.Denied);
}

Users.Request !Users.Err {
   (Users.Response);
}

Message.Request !Message.Err {
   (Accept    > Message.Accepted) > Events.Message;
   (Deny      > Message.Denied);
}

Messages.Request !Messages.Err {
   (Messages.Response);
}

# Broadcast for default event
@disconnected {
   > Events.Message?;
   > Events.UserDisconnected;
}

# Broadcast for custom event
@ServerEvents.UserKickOff {
   > Events.Message;
   > Events.UserDisconnected;
}

@ServerEvents.UserAlert {
   > Events.Message;
   > Events.UserConnected?;
}

# No response required messages from client. It's just events on producer side
@beacons {
    > Beacons.LikeUser;
    > Beacons.LikeMessage;
}
".

(** ** C23 *)

(** a text that ends with white space or one of the characters that end a word *)
Definition ends_well (t : text) : Prop :=
  match t with
  | [] => True
  | c :: r => In (last (c :: r) c) (txt " {};.:()>!?") \/ is_ws (last (c :: r) c) = true
  end.

Lemma last_any : forall (A : Type) (l : list A) d d', l <> [] -> last l d = last l d'.
Proof.
  intros A. induction l as [|x l IH]; intros d d' N; [congruence|]. destruct l as [|y l]; [reflexivity|].
  change (last (y :: l) d = last (y :: l) d'). apply IH. discriminate.
Qed.

(** One token more than there are characters is enough, and the loop then has
    ended: more rounds would change nothing.  Missing: texts that end with a
    word. *)
Theorem C23_terminates_partial : forall t p k, ends_well t ->
  wparse (S (length t)) t p <> WRunning /\ wparse (S (length t) + k) t p = wparse (S (length t)) t p.
Proof.
  intros t p k E.
  assert (N : wparse (S (length t)) t p <> WRunning).
  { apply wrun_terminates; [lia|]. intro K. destruct t as [|c r]; [congruence|]. cbn [ends_well] in E.
    assert (L : last (c :: r) lf = last (c :: r) c).
    { apply last_any. discriminate. }
    rewrite L. unfold ender. destruct E as [E|E]; [|rewrite E; reflexivity].
    apply orb_true_iff. generalize dependent (last (c :: r) c). clear. intros x E.
    cbn in E. repeat (destruct E as [<-|E]; [(left; reflexivity) || (right; reflexivity)|]). destruct E. }
  split; [exact N | apply wrun_more_fuel; exact N].
Qed.
Print Assumptions C23_terminates_partial.

Example C23_example : ends_well chat_workflow /\
  match wparse (S (length chat_workflow)) chat_workflow chat_store with WAccepted s _ => length (w_requests s) = 4 | _ => False end.
Proof. split; [right; vm_compute; reflexivity | vm_compute; reflexivity]. Qed.

(** A text that ends with a word is read forever: the last character of the word
    stays in the input and is appended to the reference again and again. *)
Theorem C23_terminates_refuted : exists t, forall p fuel, wparse fuel t p = WRunning.
Proof.
  exists (txt "Users.Request"). intros p fuel. unfold wparse.
  destruct fuel as [|[|[|fuel]]]; try reflexivity.
  apply (wrun_stuck fuel "t"%char (txt "Users.Request") wstore_new p [QWord; QDot; QSemi; QExcl; QOpen]); reflexivity.
Qed.
Print Assumptions C23_terminates_refuted.

(** every word of letters and digits that does not end with a digit *)
Theorem C23_every_last_word_loops_refuted : forall w c p fuel,
  Forall (fun x => is_alnum x = true) w -> match w with d :: _ => is_digit d = false | [] => True end ->
  is_alnum c = true -> is_digit c = false ->
  wparse fuel (w ++ [c]) p = WRunning.
Proof.
  intros w c p fuel F D A DC. destruct fuel as [|fuel]; [reflexivity|].
  assert (AL : forall x, is_alnum x = true -> word_char x = true) by (intros x X; unfold word_char; rewrite X; reflexivity).
  assert (NC : is_cont c = false) by (revert A; clear; destruct c as [[] [] [] [] [] [] [] []]; vm_compute; congruence).
  assert (L : wlex (w ++ [c]) [] 0 false false = Ok (WWord (w ++ [c]) (length w))).
  { destruct w as [|d w].
    - revert A DC. clear. destruct c as [[] [] [] [] [] [] [] []]; vm_compute; congruence.
    - inversion F as [|? ? F1 F2]; subst. cbn [app].
      assert (S1 : exists lim, wlex (d :: w ++ [c]) [] 0 false false = wlex (w ++ [c]) [d] 1 lim false).
      { destruct (word_char_wbreak d (AL d F1)) as (W1 & W2 & W3 & W4). cbn [wlex andb]. rewrite W4. cbv zeta.
        rewrite W1, D, W2, W3, F1. eexists. reflexivity. }
      destruct S1 as (lim & S1). rewrite S1.
      destruct (wlex_word_loop (w ++ [c]) [d] 1 lim []) as (lim' & S2); [discriminate| |].
      { apply Forall_app. split; [eapply Forall_impl; [|exact F2]; exact AL | constructor; [apply AL; exact A | constructor]]. }
      rewrite app_nil_r in S2. rewrite S2. cbn [wlex app]. do 2 f_equal. rewrite app_length. cbn [length]. lia. }
  assert (SL : slice (w ++ [c]) (length w) = Some [c]).
  { unfold slice. rewrite skipn_app, skipn_all, Nat.sub_diag. cbn [skipn app]. rewrite NC. reflexivity. }
  assert (O : open_entity (w ++ [c]) = Some (ORequest (request_new (w ++ [c])))).
  { unfold open_entity. destruct (teqb (w ++ [c]) (txt "&config")) eqn:T.
    - apply teqb_eq in T. exfalso. destruct w as [|d w]; [discriminate|]. inversion F; subst.
      cbn [app] in T. change (txt "&config") with ("&"%char :: txt "config") in T.
      assert (d = "&"%char) by congruence. subst d. discriminate.
    - assert (forallb is_alnum (w ++ [c]) = true) as ->; [|reflexivity].
      rewrite forallb_app. cbn [forallb]. rewrite A, andb_true_r. apply forallb_forall. apply Forall_forall. exact F. }
  unfold wparse. cbn [wrun]. rewrite L. cbn [wstep]. rewrite O. cbn [woffset].
  destruct (length w =? 0) eqn:Z.
  - unfold feed, entity_next, request_next, request_new.
    cbn [rq_pend bind entity_closed rq_closed r_state rq_ref rq_err rq_actions rq_bcs]. rewrite SL. apply wrun_stuck; assumption.
  - rewrite SL. unfold request_new. apply wrun_stuck; assumption.
Qed.
Print Assumptions C23_every_last_word_loops_refuted.

(** ** C24 *)

(** [r] names the entity [id] of [p], from the root *)
Definition denotes (p : store) (r : text) (id : nat) : Prop := names_from p 0 (split_dots r) id.

(** [r] is written somewhere in the workflow *)
Inductive referenced (s : wstore) : text -> Prop :=
| R_request : forall x r, In x (w_requests s) -> rq_ref x = Some r -> referenced s r
| R_error : forall x r, In x (w_requests s) -> rq_err x = Some r -> referenced s r
| R_response : forall x a r, In x (w_requests s) -> In a (rq_actions x) -> ac_resp a = Some r -> referenced s r
| R_action_broadcast : forall x a b, In x (w_requests s) -> In a (rq_actions x) -> In b (ac_bcs a) -> referenced s (bc_ref b)
| R_request_broadcast : forall x r, In x (w_requests s) -> In r (rq_bcs x) -> referenced s r
| R_event : forall e r, In e (w_events s) -> ev_ref e = Some r ->
    r <> txt "connected" -> r <> txt "disconnected" -> referenced s r
| R_event_broadcast : forall e b, In e (w_events s) -> In b (ev_list e) -> referenced s (bc_ref b)
| R_beacon : forall b, In b (w_beacons s) -> referenced s (bc_ref b)
| R_self_key : forall c r, w_config s = Some c -> cf_self c = Some r -> referenced s r
| R_assigned_key : forall c r, w_config s = Some c -> cf_assigned c = Some r -> referenced s r.

Lemma isdef_denotes : forall p r, isdef p r -> exists id, denotes p r id.
Proof.
  intros p r H. unfold isdef, defined in H. destruct (find_by_path p 0 (split_dots r)) as [[gs id]|] eqn:E; [|discriminate].
  exists id. eapply find_by_path_ok. exact E.
Qed.

Lemma accepted_good : forall t p s p', wf_accepts t p s p' ->
  grows p p' /\ wgood s p' /\ exists u, validate (w_requests s) (w_beacons s) = Ok u.
Proof. intros t p s p' [fuel H]. exact (wrun_ok fuel t None wstore_new p s p' I (wgood_new p) H). Qed.

(** every reference names an entity; [p'] is the protocol with the service
    structs, in which everything of [p] is still found under its name *)
Theorem C24_references_exist : forall t p s p' r, wf_accepts t p s p' -> referenced s r ->
  (exists id, denotes p' r id) /\ (forall path x, find_by_path p 0 path = Some x -> find_by_path p' 0 path = Some x).
Proof.
  intros t p s p' r H R. apply accepted_good in H as (G & W & _). split; [|exact G]. destruct W as [A B C D _ _ _].
  rewrite Forall_forall in A, B, C. apply isdef_denotes.
  destruct R as [x r X E|x r X E|x a r X Y E|x a b X Y Z|x r X E|e r X E N1 N2|e b X Y|b X|c r X E|c r X E].
  - destruct (A _ X) as ((q & Q1 & Q2) & _). congruence.
  - destruct (A _ X) as (_ & Q & _). rewrite E in Q. exact Q.
  - destruct (A _ X) as (_ & _ & _ & Q). rewrite Forall_forall in Q. destruct (Q _ Y) as (_ & (q & Q1 & Q2) & _). congruence.
  - destruct (A _ X) as (_ & _ & _ & Q). rewrite Forall_forall in Q. destruct (Q _ Y) as (_ & _ & Q'). rewrite Forall_forall in Q'.
    exact (Q' _ Z).
  - destruct (A _ X) as (_ & _ & Q & _). rewrite Forall_forall in Q. exact (Q _ E).
  - destruct (B _ X) as ((q & Q1 & Q2) & _). assert (q = r) by congruence. subst q. destruct Q2 as [Q2|Q2]; [|exact Q2].
    unfold default_event in Q2. apply orb_true_iff in Q2 as [Q2|Q2]; apply teqb_eq in Q2; congruence.
  - destruct (B _ X) as (_ & _ & Q). rewrite Forall_forall in Q. exact (Q _ Y).
  - exact (C _ X).
  - destruct (D _ X) as ((k & K1 & K2) & _). congruence.
  - destruct (D _ X) as (_ & (k & K1 & K2) & _). congruence.
Qed.
Print Assumptions C24_references_exist.

(** and the protocol afterwards is the given one, with service structs if there
    is a configuration *)
Theorem C24_protocol_kept : forall t p s p', wf_accepts t p s p' ->
  match w_config s with
  | None => p' = p
  | Some _ => exists a b, p' = add_services p (service_list a b)
  end.
Proof.
  intros t p s p' [fuel H]. exact (wrun_served p fuel t None wstore_new p s p' I eq_refl H).
Qed.
Print Assumptions C24_protocol_kept.

(** nothing a generator needs is missing *)
Theorem C24_complete : forall t p s p', wf_accepts t p s p' ->
  (forall x, In x (w_requests s) -> rq_ref x <> None /\
     (rq_actions x <> [] -> rq_err x <> None) /\
     forall a, In a (rq_actions x) -> ac_resp a <> None /\ (1 < length (rq_actions x) -> ac_concl a <> None)) /\
  (forall e, In e (w_events s) -> ev_ref e <> None /\ ev_list e <> []) /\
  (forall c, w_config s = Some c -> cf_self c <> None /\ cf_assigned c <> None /\ cf_producer c <> [] /\ cf_consumer c <> []).
Proof.
  intros t p s p' H. apply accepted_good in H as (_ & W & _). destruct W as [A B C D _ _ _]. rewrite Forall_forall in A, B.
  split; [|split].
  - intros x X. destruct (A _ X) as ((q & Q1 & Q2) & E & _ & F). split; [congruence|]. split.
    + intro N. destruct (rq_err x); [discriminate | congruence].
    + intros a Y. rewrite Forall_forall in F. destruct (F _ Y) as (F1 & (r & R1 & R2) & _). split; [congruence|].
      intro K. apply F1. lia.
  - intros e X. destruct (B _ X) as ((q & Q1 & Q2) & E & _). split; [congruence | exact E].
  - intros c X. destruct (D _ X) as ((k & K1 & _) & (k2 & K2 & _) & E1 & E2). repeat split; congruence.
Qed.
Print Assumptions C24_complete.

(** ** C25 *)

Theorem C25_unique : forall t p s p', wf_accepts t p s p' ->
  NoDup (map rq_ref (w_requests s)) /\ NoDup (map ev_ref (w_events s)) /\ NoDup (map bc_ref (w_beacons s)) /\
  (forall b x, In b (w_beacons s) -> In x (w_requests s) -> rq_ref x <> Some (bc_ref b)).
Proof.
  intros t p s p' H. apply accepted_good in H as (_ & W & u & V). destruct W as [_ _ _ _ E F G].
  split; [exact E|]. split; [exact F|]. split; [exact G|]. intros b x B X. exact (validate_disjoint _ _ _ V b x B X).
Qed.
Print Assumptions C25_unique.

(** different references are different entities, so different messages *)
Theorem C25_distinct_entities : forall pt p t s p' r r' id id', accepts pt p -> wf_accepts t p s p' ->
  referenced s r -> referenced s r' -> r <> r' -> denotes p' r id -> denotes p' r' id' -> id <> id'.
Proof.
  intros pt p t s p' r r' id id' P H _ _ N D D' E. subst id'.
  pose proof (C24_protocol_kept t p s p' H) as K. pose proof (inv_uniq p (accepts_inv pt p P)) as U.
  assert (U' : uniq p') by (destruct (w_config s); [destruct K as (a & b & ->); apply services_uniq; exact U | subst p'; exact U]).
  apply N. apply split_inj. exact (names_path p' U' _ _ _ D D').
Qed.
Print Assumptions C25_distinct_entities.

(** ** C60 *)

(** declarations of the documented forms (see [wdecl]) are read back exactly, in
    every layout with white space and comments *)
Theorem C60_documented_forms : forall p ds t, workflow_ok p ds -> wlayout (wdecls_toks ds) t ->
  exists s p', wf_accepts t p s p' /\
    map request_view (w_requests s) = flat_map says_request ds /\
    map event_view (w_events s) = flat_map says_event ds /\
    w_beacons s = flat_map says_beacon ds /\
    config_said s = flat_map says_config ds.
Proof.
  intros p ds t W L. destruct (workflow_parsed p ds t (S (length (wdecls_toks ds))) W L (Nat.lt_succ_diag_r _)) as (s & p' & A & _ & B).
  exists s, p'. split; [exists (S (length (wdecls_toks ds))); exact A | exact B].
Qed.
Print Assumptions C60_documented_forms.

Definition pth (a : string) (b : string) : path := (txt a, [txt b]).
Definition chat_decls : list wdecl := [
  DConfig [CESelf (pth "Identification" "SelfKey"); CEAssigned (pth "Identification" "AssignedKey");
           CETargets true [TRust]; CETargets false [TRust]];
  DActions (pth "UserLogin" "Request") (pth "UserLogin" "Err")
    [mkActionDecl (Some (txt "Accept")) (pth "UserLogin" "Accepted")
       [(pth "Events" "UserConnected", false); (pth "Events" "Message", false)];
     mkActionDecl (Some (txt "Deny")) (pth "UserLogin" "Denied") []];
  DActions (pth "Users" "Request") (pth "Users" "Err") [mkActionDecl None (pth "Users" "Response") []];
  DActions (pth "Message" "Request") (pth "Message" "Err")
    [mkActionDecl (Some (txt "Accept")) (pth "Message" "Accepted") [(pth "Events" "Message", false)];
     mkActionDecl (Some (txt "Deny")) (pth "Message" "Denied") []];
  DActions (pth "Messages" "Request") (pth "Messages" "Err") [mkActionDecl None (pth "Messages" "Response") []];
  DEvent (txt "disconnected", []) [(pth "Events" "Message", true); (pth "Events" "UserDisconnected", false)];
  DEvent (pth "ServerEvents" "UserKickOff") [(pth "Events" "Message", false); (pth "Events" "UserDisconnected", false)];
  DEvent (pth "ServerEvents" "UserAlert") [(pth "Events" "Message", false); (pth "Events" "UserConnected", true)];
  DBeacons [pth "Beacons" "LikeUser"; pth "Beacons" "LikeMessage"]].

(** the project's own example is one of these texts *)
Example C60_layout : wlayout (wdecls_toks chat_decls) chat_workflow.
Proof. apply lays_ok; vm_compute; reflexivity. Qed.

Ltac decide_name := split; [split; [reflexivity | split; [left; reflexivity | repeat constructor]] | reflexivity].
Ltac decide_refers := split; [split; [decide_name | repeat (constructor; [decide_name|]); constructor] | vm_compute; reflexivity].
Ltac decide_nodup := repeat (constructor; [vm_compute; intuition congruence|]); constructor.
Ltac decide_all := repeat (constructor; [cbn [fst]; decide_refers|]); constructor.

Example C60_well_formed : workflow_ok chat_store chat_decls.
Proof.
  split; [|split; [|split; [|split; [|split]]]].
  - constructor; [|constructor; [|constructor; [|constructor; [|constructor; [|constructor; [|constructor; [|constructor; [|constructor; [|constructor]]]]]]]]]; cbn [wdecl_ok].
    + split; [|split; [decide_nodup | split; vm_compute; auto]].
      constructor; [decide_refers|]. constructor; [decide_refers|].
      constructor; [split; [discriminate | decide_nodup]|]. constructor; [split; [discriminate | decide_nodup] | constructor].
    + split; [decide_refers|]. split; [reflexivity|]. split; [decide_refers|]. split; [discriminate|].
      constructor; [split; [decide_name|]; split; [decide_refers|]; split; [decide_all | decide_nodup]|].
      constructor; [split; [decide_name|]; split; [decide_refers|]; split; [decide_all | decide_nodup]|]. constructor.
    + split; [decide_refers|]. split; [reflexivity|]. split; [decide_refers|]. split; [discriminate|].
      constructor; [split; [split; reflexivity|]; split; [decide_refers|]; split; [decide_all | decide_nodup]|]. constructor.
    + split; [decide_refers|]. split; [reflexivity|]. split; [decide_refers|]. split; [discriminate|].
      constructor; [split; [decide_name|]; split; [decide_refers|]; split; [decide_all | decide_nodup]|].
      constructor; [split; [decide_name|]; split; [decide_refers|]; split; [decide_all | decide_nodup]|]. constructor.
    + split; [decide_refers|]. split; [reflexivity|]. split; [decide_refers|]. split; [discriminate|].
      constructor; [split; [split; reflexivity|]; split; [decide_refers|]; split; [decide_all | decide_nodup]|]. constructor.
    + split; [split; [decide_name | constructor]|]. split; [left; reflexivity|]. split; [discriminate|]. split; [discriminate|]. decide_all.
    + split; [split; [decide_name | repeat (constructor; [decide_name|]); constructor]|].
      split; [right; vm_compute; reflexivity|]. split; [discriminate|]. split; [discriminate|]. decide_all.
    + split; [split; [decide_name | repeat (constructor; [decide_name|]); constructor]|].
      split; [right; vm_compute; reflexivity|]. split; [discriminate|]. split; [discriminate|]. decide_all.
    + split; [discriminate|]. decide_all.
  - vm_compute. repeat (constructor; [vm_compute; intuition congruence|]). constructor.
  - vm_compute. repeat (constructor; [vm_compute; intuition congruence|]). constructor.
  - vm_compute. repeat (constructor; [vm_compute; intuition congruence|]). constructor.
  - vm_compute. lia.
  - intros b B. vm_compute in B. destruct B as [<-|[<-|[]]]; vm_compute; intuition congruence.
Qed.

(** hence C24 and C25 speak about it *)
Example C25_example : exists s p', wf_accepts chat_workflow chat_store s p' /\
  length (w_requests s) = 4 /\ length (w_events s) = 3 /\ length (w_beacons s) = 2 /\ referenced s (txt "Events.Message").
Proof.
  destruct (C60_documented_forms _ _ _ C60_well_formed C60_layout) as (s & p' & A & B & C & D & E).
  exists s, p'. split; [exact A|]. rewrite <- (map_length request_view), B, <- (map_length event_view), C, D.
  split; [reflexivity|]. split; [reflexivity|]. split; [reflexivity|].
  assert (X : In (Some (txt "disconnected"), [mkBroadcast (txt "Events.Message") true; mkBroadcast (txt "Events.UserDisconnected") false])
                 (map event_view (w_events s))) by (rewrite C; left; reflexivity).
  apply in_map_iff in X as (e & X1 & X2). unfold event_view in X1.
  apply (R_event_broadcast s e (mkBroadcast (txt "Events.Message") true) X2).
  assert (ev_list e = [mkBroadcast (txt "Events.Message") true; mkBroadcast (txt "Events.UserDisconnected") false]) as -> by congruence.
  left. reflexivity.
Qed.

(** forms one would expect that are rejected *)
Theorem C60_broadcast_without_conclusion_refuted :
  wf_rejects (txt "Users.Request !Users.Err { (Users.Response) > Events.Message; } ") chat_store /\
  exists s p', wf_accepts (txt "Users.Request !Users.Err { (Any > Users.Response) > Events.Message; } ") chat_store s p'.
Proof.
  split; [exists 60; vm_compute; reflexivity|]. eexists _, _. exists 60. vm_compute. reflexivity.
Qed.
Print Assumptions C60_broadcast_without_conclusion_refuted.

(** a request that is a struct of the root cannot be declared without actions *)
Definition root_store : store := Eval vm_compute in
  match parse (txt "struct Ping { u8 a; } struct Pong { u8 a; } struct My_ping { u8 a; } struct E { u8 a; }") with PAccepted s => s | _ => store_new end.
Theorem C60_root_request_refuted :
  wf_rejects (txt "Ping; ") root_store /\ wf_rejects (txt "Ping { > Pong; } ") root_store /\
  exists s p', wf_accepts (txt "Ping !E { (Pong); } ") root_store s p'.
Proof.
  split; [exists 60; vm_compute; reflexivity|]. split; [exists 60; vm_compute; reflexivity|].
  eexists _, _. exists 60. vm_compute. reflexivity.
Qed.
Print Assumptions C60_root_request_refuted.

(** nor can a name with '_', which the protocol allows, start a declaration *)
Theorem C60_underscore_refuted :
  wf_rejects (txt "My_ping !E { (Pong); } ") root_store /\
  exists s p', wf_accepts (txt "Ping !E { (My_ping); } ") root_store s p'.
Proof. split; [exists 60; vm_compute; reflexivity|]. eexists _, _. exists 60. vm_compute. reflexivity. Qed.
Print Assumptions C60_underscore_refuted.

(** texts outside the documented forms that are accepted: stray words in a body,
    and a key without its ';', which is dropped *)
Theorem C60_stray_words_refuted : exists s p',
  wf_accepts (txt "Ping !E { what ever (Pong); } ") root_store s p' /\
  map request_view (w_requests s) = [(Some (txt "Ping"), Some (txt "E"), [(None, Some (txt "Pong"), [])], [])].
Proof. eexists _, _. split; [exists 60; vm_compute; reflexivity | vm_compute; reflexivity]. Qed.
Print Assumptions C60_stray_words_refuted.

Theorem C60_dropped_key_refuted : exists s p',
  wf_accepts (txt "&config { Producer: rust; Consumer: rust; SelfKey: Ping } ") root_store s p' /\
  config_said s = [([TRust], [TRust], Some (service "SelfKeyRequest"), Some (service "AssignedKey"))].
Proof. eexists _, _. split; [exists 60; vm_compute; reflexivity | vm_compute; reflexivity]. Qed.
Print Assumptions C60_dropped_key_refuted.

(** ** C61 *)

(** Two texts with the same words and symbols have the same outcome, however
    they are laid out and commented.  Comments must be ASCII and end with their
    line. *)
Theorem C61_layout_irrelevant_partial : forall ks t t' p fuel, wlayout ks t -> wlayout ks t' -> length ks < fuel ->
  wparse fuel t p = wparse fuel t' p /\ wparse fuel t p <> WRunning.
Proof.
  intros ks t t' p fuel L L' F. unfold wparse. rewrite (wrun_layout _ _ L), (wrun_layout _ _ L') by exact F.
  split; [reflexivity|]. destruct (krun ks None wstore_new p) as [[[o s] p1]|e|]; [destruct (validate _ _)| |]; discriminate.
Qed.
Print Assumptions C61_layout_irrelevant_partial.

Example C61_example : wlayout (wdecls_toks [DBeacons [pth "Beacons" "LikeUser"]]) (txt "@beacons#c
{>Beacons .LikeUser # ; }
; } ") /\ wlayout (wdecls_toks [DBeacons [pth "Beacons" "LikeUser"]]) (txt "@beacons { > Beacons.LikeUser; }").
Proof. split; apply lays_ok; vm_compute; reflexivity. Qed.

(** a comment with a non-ASCII character changes what is read: the position is
    counted in characters and used in bytes *)
Definition e_acute : text := map ascii_of_nat [195; 169].
Theorem C61_non_ascii_comment_refuted :
  (exists s p', wf_accepts (txt "#
Users.Request; ") chat_store s p') /\
  wf_rejects (txt "#" ++ e_acute ++ txt "
Users.Request; ") chat_store.
Proof. split; [eexists _, _; exists 60; vm_compute; reflexivity | exists 60; vm_compute; reflexivity]. Qed.
Print Assumptions C61_non_ascii_comment_refuted.

(** it can also crash the program *)
Theorem C61_non_ascii_comment_panics_refuted : exists fuel,
  wparse fuel (txt "A#" ++ e_acute ++ e_acute ++ e_acute ++ txt "
.B;") chat_store = WPanicked.
Proof. exists 60. vm_compute. reflexivity. Qed.
Print Assumptions C61_non_ascii_comment_panics_refuted.

(** ** C62 *)

Theorem C62_truncated_rejected_refuted : exists s p',
  wf_accepts (txt "UserLogin.Request !UserLogin.Err { (Accept > UserLogin.Accepted) > Events.Message;") chat_store s p' /\
  w_requests s = [].
Proof. eexists _, _. split; [exists 60; vm_compute; reflexivity | vm_compute; reflexivity]. Qed.
Print Assumptions C62_truncated_rejected_refuted.

(** indeed every cut inside the last declaration is accepted, and the
    declaration is dropped *)
Theorem C62_every_cut_accepted_refuted : forall p ds d cut more t, workflow_ok p (ds ++ [d]) ->
  wdecl_toks d = cut ++ more -> more <> [] -> wlayout (wdecls_toks ds ++ cut) t ->
  exists s p', wf_accepts t p s p' /\
    map request_view (w_requests s) = flat_map says_request ds /\
    map event_view (w_events s) = flat_map says_event ds /\
    w_beacons s = flat_map says_beacon ds /\
    config_said s = flat_map says_config ds.
Proof.
  intros p ds d cut more t W E N L.
  destruct (workflow_cut p ds d cut more t _ W E N L (Nat.lt_succ_diag_r _)) as (s & p' & A & _ & B).
  exists s, p'. split; [eexists; exact A | exact B].
Qed.
Print Assumptions C62_every_cut_accepted_refuted.

Example C62_example : exists d cut more, wdecl_toks d = cut ++ more /\ cut <> [] /\ more <> [] /\
  workflow_ok chat_store (chat_decls ++ [d]) /\
  wlayout (wdecls_toks chat_decls ++ cut) (chat_workflow ++ txt "@connected { > Events.Message; ").
Proof.
  exists (DEvent (txt "connected", []) [(pth "Events" "Message", false)]).
  exists [KWd (txt "@connected"); KSym "{"%char; KSym ">"%char; KWd (txt "Events"); KSym "."%char; KWd (txt "Message"); KSym ";"%char], [KSym "}"%char].
  split; [reflexivity|]. split; [discriminate|]. split; [discriminate|]. split.
  - destruct C60_well_formed as (W1 & _). split; [apply Forall_app; split; [exact W1|]|].
    + constructor; [|constructor]. split; [split; [decide_name | constructor]|]. split; [left; reflexivity|].
      split; [discriminate|]. split; [discriminate|]. decide_all.
    + repeat split; try (vm_compute; lia); try (vm_compute; repeat (constructor; [vm_compute; intuition congruence|]); constructor).
      intros b B. vm_compute in B. destruct B as [<-|[<-|[]]]; vm_compute; intuition congruence.
  - apply lays_ok; vm_compute; reflexivity.
Qed.
