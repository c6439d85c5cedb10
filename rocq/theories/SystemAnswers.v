(** Why the producer sends a message, and which message a consumer takes for the
    answer of a call (C74). *)
From Coq Require Import List NArith Bool Lia Arith Wf_nat.
From Verif Require Import Bytes WireModel FrameModel FrameProofs.
From Verif Require ProducerModel ProducerProofs ProducerMore ConsumerModel ConsumerTrace ConsumerTrace2 ConsumerSpec PropConsumer PropConsumerLife.
From Verif Require Import SystemModel SystemProofs.
Import ListNotations.
Open Scope N_scope.

(** ** The producer *)
Section Producer.
Import ProducerModel ProducerProofs.
Variable E : env.
Notation out := (out E).
Notation st := (st E).
Notation P := (P E).
Notation OHandle := (OHandle E). Notation OCall := (OCall E). Notation OBeacon := (OBeacon E). Notation OSend := (OSend E).
Notation answer_of := (ProducerMore.answer_of E).

(** what stands right before a message of the producer *)
Definition reason (t1 : list out) (v : uuid) (n : N) (p : payload (e_user E)) : Prop :=
  match p with
  | PAnswer x => exists t0 h m r ids res, t1 = t0 ++ [OHandle v h m; OCall v r m ids res] /\ n = h_seq h /\
      e_request E m = Some r /\ x = answer_of res
  | PBeacon => exists t0 h m b ids, t1 = t0 ++ [OHandle v h m; OBeacon v b m ids true] /\ n = h_seq h /\ e_request E m = None /\ e_beacon E m = Some b
  | PSelf w => w = v /\ exists t0 h m, t1 = t0 ++ [OHandle v h m] /\ n = h_seq h /\ e_self E m <> None
  | PHash b => exists t0 h m pw, t1 = t0 ++ [OHandle v h m] /\ n = h_seq h /\ e_hash E m = Some pw /\ b = hash_valid E pw
  | PConfirm => n = 0
  | PBroadcast _ => True
  end.
Definition reasoned (t : list out) : Prop := forall t1 v n p ok t2, t = t1 ++ OSend v n p ok :: t2 -> reason t1 v n p.

Lemma reason_after t t1 v n p : reason t1 v n p -> reason (t ++ t1) v n p.
Proof.
  destruct p; cbn [reason]; auto.
  - intros (W & t0 & h & m & -> & R). split; [exact W|]. exists (t ++ t0), h, m. rewrite app_assoc. auto.
  - intros (t0 & h & m & pw & -> & R). exists (t ++ t0), h, m, pw. rewrite app_assoc. auto.
  - intros (t0 & h & m & b & ids & -> & R). exists (t ++ t0), h, m, b, ids. rewrite app_assoc. auto.
  - intros (t0 & h & m & r & ids & res & -> & R). exists (t ++ t0), h, m, r, ids, res. rewrite app_assoc. auto.
Qed.
Lemma split_app {A} (a b t1 t2 : list A) (o : A) : a ++ b = t1 ++ o :: t2 ->
  (exists l, a = t1 ++ o :: l) \/ exists l, t1 = a ++ l /\ b = l ++ o :: t2.
Proof.
  intros Q. destruct (app_eq_app _ _ _ _ Q) as (l & [(Q1 & Q2)|(Q1 & Q2)]).
  - destruct l as [|x l]; [|cbn in Q2; injection Q2 as <- _; eauto]. right. exists []. rewrite app_nil_r in *. cbn in Q2. auto.
  - right. exists l. auto.
Qed.
Lemma reasoned_app a b : reasoned a -> reasoned b -> reasoned (a ++ b).
Proof.
  intros A B t1 v n p ok t2 Q. destruct (split_app _ _ _ _ _ Q) as [(l & Q1)|(l & -> & Q1)].
  - apply (A _ _ _ _ _ _ Q1).
  - apply reason_after. apply (B _ _ _ _ _ _ Q1).
Qed.
Lemma reasoned_prefix a b : reasoned (a ++ b) -> reasoned a.
Proof. intros R t1 v n p ok t2 Q. apply (R t1 v n p ok (t2 ++ b)). rewrite Q, <- app_assoc. reflexivity. Qed.
Lemma reasoned_nil : reasoned [].
Proof. intros [|x t1]; discriminate. Qed.
Lemma reasoned_one o : match o with ProducerModel.OSend _ v n p _ => reason [] v n p | _ => True end -> reasoned [o].
Proof.
  intros R [|x t1] v n p ok t2 Q; cbn in Q; [|injection Q as _ Q; destruct t1; discriminate Q].
  injection Q as Q _. subst o. exact R.
Qed.

Definition fair {A} (m : P A) : Prop := forall s, wp E m s (fun t _ _ => reasoned t).
Lemma fair_bind {A B} (m : P A) (f : A -> P B) : fair m -> (forall a, fair (f a)) -> fair (bindp E m f).
Proof.
  intros M F s. apply wp_bind. eapply wp_mono; [apply M|]. cbv beta. intros t s1 [a|e|] R; auto.
  eapply wp_mono; [apply F|]. cbv beta. intros. apply reasoned_app; assumption.
Qed.
Lemma fair_emit o : match o with ProducerModel.OSend _ v n p _ => reason [] v n p | _ => True end -> fair (emit E o).
Proof. intros R s. unfold wp, emit. cbn [fst snd]. apply reasoned_one. exact R. Qed.
Lemma fair_ret {A} (a : A) : fair (ret E a). Proof. intros s. apply reasoned_nil. Qed.
Lemma fair_stop {A} e : fair (@stop E A e). Proof. intros s. apply reasoned_nil. Qed.
Lemma fair_panic {A} : fair (@panic E A). Proof. intros s. apply reasoned_nil. Qed.
Lemma fair_world {A} (f : _ -> _ * A) : fair (world E f).
Proof. intros s. unfold wp, world. destruct (f (s_w E s)). apply reasoned_nil. Qed.
Lemma fair_get_tab : fair (get_tab E). Proof. intros s. apply reasoned_nil. Qed.
Lemma fair_look v : fair (look E v). Proof. intros s. apply reasoned_nil. Qed.
Lemma fair_upd v f : fair (upd E v f).
Proof. intros s. unfold wp, upd. destruct (find E v (s_tab E s)); apply reasoned_nil. Qed.
Lemma fair_put (f : st -> st) : fair (fun s => ([], (f s, PGo tt))). Proof. intros s. apply reasoned_nil. Qed.
Lemma fair_send v n p : reason [] v n p -> fair (send E v n p).
Proof. intros R. apply fair_bind; [apply fair_world|]. intros ok. apply fair_bind; [apply fair_emit; exact R|]. intros. apply fair_ret. Qed.
Lemma fair_try_pack v n p : fair (try_pack E v n p).
Proof.
  apply fair_bind; [apply fair_world|]. intros [|]; [apply fair_ret|].
  apply fair_bind; [apply fair_emit; exact I|]. intros. apply fair_ret.
Qed.
Lemma fair_broadcast us x : fair (broadcast E us x).
Proof. induction us; cbn [broadcast]; [apply fair_ret|]. apply fair_bind; [apply fair_send; exact I|auto]. Qed.
Lemma fair_broadcast_all l : fair (broadcast_all E l).
Proof. induction l as [|[us x] l IH]; cbn [broadcast_all]; [apply fair_ret|]. apply fair_bind; [apply fair_broadcast|auto]. Qed.
Lemma fair_pack_all v l : fair (pack_all E v l).
Proof.
  induction l as [|[us x] l IH]; cbn [pack_all]; [apply fair_ret|].
  apply fair_bind; [apply fair_try_pack|]. intros [|]; [auto|apply fair_ret].
Qed.
Lemma fair_deferred : fair (deferred E).
Proof. apply fair_bind; [apply fair_world|]. intros. apply fair_emit. exact I. Qed.
Lemma fair_emit_error e v i : fair (emit_error E e v i).
Proof.
  apply fair_bind; [apply fair_world|]. intros ok. apply fair_bind; [apply fair_emit; exact I|]. intros. destruct ok; [apply fair_ret|apply fair_stop].
Qed.
Lemma fair_ident_at v : fair (ident_at E v).
Proof. apply fair_bind; [apply fair_look|]. intros. apply fair_ret. Qed.
Lemma fair_disconnect v : fair (disconnect E v).
Proof.
  apply fair_bind; [apply fair_look|]. intros [c|]; [|apply fair_ret]. destruct (c_disc E c); [apply fair_ret|].
  apply fair_bind; [apply fair_upd|]. intros _. apply fair_bind; [apply fair_world|]. intros ok.
  apply fair_bind; [apply fair_emit; exact I|]. intros _. destruct ok; [apply fair_ret|apply fair_stop].
Qed.
Lemma fair_expel v e : fair (expel E v e).
Proof. apply fair_bind; [apply fair_disconnect|]. intros _. apply fair_bind; [apply fair_ident_at|]. intros. apply fair_emit_error. Qed.
Lemma fair_responsing v : fair (responsing_err E v).
Proof.
  unfold responsing_err. apply fair_bind; [destruct (e_cs E); try apply fair_ret; apply fair_disconnect|]. intros _.
  destruct (e_cs E); try apply fair_ret; (apply fair_bind; [apply fair_ident_at|]; intros; apply fair_emit_error).
Qed.
Lemma fair_not_assigned v : fair (not_assigned E v).
Proof.
  unfold not_assigned. apply fair_bind; [destruct (e_is E); try apply fair_ret; apply fair_disconnect|]. intros _.
  destruct (e_is E); try apply fair_ret; (apply fair_bind; [apply fair_ident_at|]; intros; apply fair_emit_error).
Qed.
Lemma fair_emit_event ds bs : fair (emit_event E ds bs).
Proof.
  destruct bs as [bs|]; cbn [emit_event]; [|apply fair_ret]. apply fair_bind; [apply fair_pack_all|]. intros [|]; [|apply fair_ret].
  apply fair_bind; [apply fair_broadcast_all|]. intros _. apply fair_bind; [apply fair_deferred|]. intros. apply fair_ret.
Qed.

(** a piece of code that follows [pre] *)
Definition next_to (pre : list out) {A} (m : P A) : Prop := forall s, wp E m s (fun t _ _ => reasoned (pre ++ t)).
Lemma next_fair pre {A} (m : P A) : reasoned pre -> fair m -> next_to pre m.
Proof. intros R F s. eapply wp_mono; [apply F|]. cbv beta. intros. apply reasoned_app; assumption. Qed.
(** code that does nothing visible *)
Definition still {A} (m : P A) : Prop := forall s, wp E m s (fun t _ _ => t = []).
Lemma next_still pre {A B} (m : P A) (f : A -> P B) : reasoned pre -> still m -> (forall a, next_to pre (f a)) -> next_to pre (bindp E m f).
Proof.
  intros R M F s. apply wp_bind. eapply wp_mono; [apply M|]. cbv beta. intros t s1 [a|e|] ->; try (rewrite app_nil_r; exact R).
  eapply wp_mono; [apply F|]. auto.
Qed.
Lemma next_emit pre {B} o (f : unit -> P B) : next_to (pre ++ [o]) (f tt) -> next_to pre (bindp E (emit E o) f).
Proof.
  intros F s. apply wp_bind. unfold wp at 1, emit. cbn [fst snd]. eapply wp_mono; [apply F|]. cbv beta. intros t s' r.
  rewrite <- app_assoc. auto.
Qed.
Lemma next_bind pre {A B} (m : P A) (f : A -> P B) : next_to pre m -> (forall a, fair (f a)) -> next_to pre (bindp E m f).
Proof.
  intros M F s. apply wp_bind. eapply wp_mono; [apply M|]. cbv beta. intros t s1 [a|e|] R; auto.
  eapply wp_mono; [apply F|]. cbv beta. intros. rewrite app_assoc. apply reasoned_app; assumption.
Qed.
Lemma still_world {A} (f : _ -> _ * A) : still (world E f).
Proof. intros s. unfold wp, world. destruct (f (s_w E s)). reflexivity. Qed.
Lemma still_get_tab : still (get_tab E). Proof. intros s. reflexivity. Qed.
Lemma still_upd v f : still (upd E v f).
Proof. intros s. unfold wp, upd. destruct (find E v (s_tab E s)); reflexivity. Qed.
Lemma still_ret {A} (a : A) : still (ret E a). Proof. intros s. reflexivity. Qed.

Lemma snoc_reasoned pre v n p ok : reasoned pre -> reason pre v n p -> reasoned (pre ++ [OSend v n p ok]).
Proof.
  intros R Q t1 w k q b t2 Z. destruct (split_app _ _ _ _ _ Z) as [(l & Z1)|(l & -> & Z1)]; [apply (R _ _ _ _ _ _ Z1)|].
  destruct l as [|x l]; cbn in Z1; [injection Z1 as -> -> -> _ _; rewrite app_nil_r; exact Q|].
  injection Z1 as _ Z1. destruct l; discriminate Z1.
Qed.
Lemma next_pack_send pre v n p : reasoned pre -> reason pre v n p -> next_to pre (pack_send E v n p).
Proof.
  intros R Q. unfold pack_send. intros s. apply wp_bind.
  assert (T : wp E (try_pack E (Some v) n p) s (fun t _ r => r = PGo true /\ t = [] \/ r = PGo false /\ t = [OUnpacked E (Some v) n p])).
  { unfold try_pack. apply wp_bind. unfold wp at 1, world. destruct (w_pack E (s_w E s) p) as [w [|]]; cbn [fst snd app]; [left|right]; split; reflexivity. }
  eapply wp_mono; [exact T|]. cbv beta. intros t s1 r [(-> & ->)|(-> & ->)].
  - cbn [app]. change (next_to pre (send E v n p)) with (forall s, wp E (send E v n p) s (fun t _ _ => reasoned (pre ++ t))).
    assert (S : next_to pre (send E v n p)); [|exact (S s1)].
    unfold send. apply next_still; [exact R|apply still_world|]. intros ok. apply next_emit. apply next_fair; [|apply fair_ret].
    apply snoc_reasoned; assumption.
  - unfold wp, ret. cbn [fst snd app]. apply reasoned_app; [exact R|]. apply reasoned_one. exact I.
Qed.

Lemma calls_reasoned v h m o : match o with ProducerModel.OSend _ _ _ _ _ => False | _ => True end -> reasoned [OHandle v h m; o].
Proof.
  intros N. change [OHandle v h m; o] with ([OHandle v h m] ++ [o]). apply reasoned_app; apply reasoned_one; [exact I|].
  destruct o; auto. destruct N.
Qed.

Lemma next_pack_all pre v l (f : bool -> P bool) : reasoned pre -> fair (f false) -> next_to pre (f true) ->
  next_to pre (bindp E (pack_all E v l) f).
Proof.
  intros R F0 F1 s. apply wp_bind.
  assert (T : wp E (pack_all E v l) s (fun t _ r => r = PGo true /\ t = [] \/ r = PGo false /\ reasoned t)).
  { revert s. induction l as [|[us x] l IH]; intros s; cbn [pack_all]; [left; split; reflexivity|].
    apply wp_bind. unfold try_pack. apply wp_bind. unfold wp at 1, world. destruct (w_pack E (s_w E s) (PBroadcast x)) as [w [|]]; cbn [fst snd].
    - apply IH.
    - right. cbn [fst snd app]. split; [reflexivity|]. apply reasoned_one. exact I. }
  eapply wp_mono; [exact T|]. cbv beta. intros t s1 r [(-> & ->)|(-> & Rt)].
  - apply F1.
  - eapply wp_mono; [apply F0|]. cbv beta. intros. rewrite app_assoc. apply reasoned_app; [apply reasoned_app; assumption|assumption].
Qed.

Lemma fair_bind_ret {A B} (a : A) (f : A -> P B) : fair (f a) -> fair (bindp E (ret E a) f).
Proof. intros F s. apply wp_bind. exact (F s). Qed.
Lemma next_ret pre {A B} (a : A) (f : A -> P B) : next_to pre (f a) -> next_to pre (bindp E (ret E a) f).
Proof. intros F s. apply wp_bind. exact (F s). Qed.
Lemma next_assoc pre {A B C} (m : P A) (f : A -> P B) (g : B -> P C) :
  next_to pre (bindp E m (fun a => bindp E (f a) g)) -> next_to pre (bindp E (bindp E m f) g).
Proof.
  intros F s. specialize (F s). unfold wp, bindp in *. destruct (m s) as [t [s1 [a|e|]]]; cbn [fst snd] in *; auto.
  destruct (f a s1) as [t2 [s2 [b|e|]]]; cbn [fst snd] in *; auto.
  destruct (g b s2) as [t3 [s3 r]]. cbn [fst snd] in *. rewrite <- !app_assoc in *. exact F.
Qed.

Lemma next_process_request v r i h m : e_request E m = Some r -> next_to [OHandle v h m] (process_request E v r i (h_seq h) m).
Proof.
  intros Rq. unfold process_request. assert (R0 : reasoned [OHandle v h m]) by (apply reasoned_one; exact I).
  apply next_still; [exact R0|apply still_get_tab|]. intros t. apply next_still; [exact R0|apply still_world|]. intros res.
  apply next_emit. cbn [app].
  assert (R1 : reasoned [OHandle v h m; OCall v r m (idents E t) res]) by (apply calls_reasoned; exact I).
  assert (Q : reason [OHandle v h m; OCall v r m (idents E t) res] v (h_seq h) (PAnswer (answer_of res))).
  { exists [], h, m, r, (idents E t), res. auto. }
  assert (S : forall l, next_to [OHandle v h m; OCall v r m (idents E t) res]
    (bindp E (pack_send E v (h_seq h) (PAnswer (answer_of res))) (fun ok => if ok then bindp E (broadcast_all E l) (fun _ => bindp E (deferred E) (fun _ => ret E true)) else ret E false))).
  { intros l. apply next_bind; [apply next_pack_send; assumption|]. intros [|]; [|apply fair_ret].
    apply fair_bind; [apply fair_broadcast_all|]. intros _. apply fair_bind; [apply fair_deferred|]. intros. apply fair_ret. }
  destruct res as [x|n x bs]; cbn [ProducerMore.answer_of] in *.
  - apply next_ret. apply S.
  - destruct (Nat.ltb 1 (length (e_requests E r))); [|apply next_ret; apply S]. apply next_assoc.
    apply next_pack_all; [exact R1| |].
    + apply fair_bind_ret, fair_ret.
    + apply next_ret. apply S.
Qed.
Lemma next_process_beacon v b i h m : e_request E m = None -> e_beacon E m = Some b -> next_to [OHandle v h m] (process_beacon E v b i (h_seq h) m).
Proof.
  intros Rn Rq. unfold process_beacon. assert (R0 : reasoned [OHandle v h m]) by (apply reasoned_one; exact I).
  apply next_still; [exact R0|apply still_get_tab|]. intros t. apply next_still; [exact R0|apply still_world|]. intros ok.
  apply next_emit. cbn [app].
  assert (R1 : reasoned [OHandle v h m; OBeacon v b m (idents E t) ok]) by (apply calls_reasoned; exact I).
  destruct ok; [|apply next_fair; [exact R1|apply fair_ret]]. apply next_bind.
  - apply next_pack_send; [exact R1|]. exists [], h, m, b, (idents E t). auto.
  - intros [|]; [|apply fair_ret]. apply fair_bind; [apply fair_deferred|]. intros. apply fair_ret.
Qed.
Lemma next_dispatch v c h m : next_to [OHandle v h m] (dispatch E v c h m).
Proof.
  unfold dispatch. assert (R0 : reasoned [OHandle v h m]) by (apply reasoned_one; exact I).
  destruct (e_request E m) as [r|] eqn:Q.
  - apply next_bind; [apply next_process_request; exact Q|]. intros [|]; [apply fair_ret|apply fair_responsing].
  - destruct (e_beacon E m) as [b|] eqn:Qb; [|apply next_fair; [exact R0|apply fair_ret]].
    apply next_bind; [apply next_process_beacon; [exact Q|exact Qb]|]. intros [|]; [apply fair_ret|apply fair_emit_error].
Qed.
Lemma next_handle v asg hk h m c : next_to [OHandle v h m] (handle E v asg hk h m c).
Proof.
  assert (R0 : reasoned [OHandle v h m]) by (apply reasoned_one; exact I). unfold handle. cbv zeta.
  assert (O : next_to [OHandle v h m]
    match e_hash E m with
    | Some pw => bindp E (if hash_valid E pw then upd E v (set_hash E) else ret E tt) (fun _ =>
        bindp E (pack_send E v (h_seq h) (PHash (hash_valid E pw))) (fun ok =>
        bindp E (if ok then ret E tt else responsing_err E v) (fun _ => if hash_valid E pw then ret E tt else expel E v (ENoKey v))))
    | None =>
      if negb (c_hash E c) then expel E v (ENoKey v) else if negb hk then expel E v (ENoKey v)
      else if negb asg && match e_is E with IIgnore => false | _ => true end then not_assigned E v else dispatch E v c h m
    end).
  { destruct (e_hash E m) as [pw|] eqn:Qh.
    - apply next_still; [exact R0|destruct (hash_valid E pw); [apply still_upd|apply still_ret]|]. intros _.
      apply next_bind.
      + apply next_pack_send; [exact R0|]. exists [], h, m, pw. repeat split. exact Qh.
      + intros ok. apply fair_bind; [destruct ok; [apply fair_ret|apply fair_responsing]|]. intros _.
        destruct (hash_valid E pw); [apply fair_ret|apply fair_expel].
    - destruct (negb (c_hash E c)); [apply next_fair; [exact R0|apply fair_expel]|].
      destruct (negb hk); [apply next_fair; [exact R0|apply fair_expel]|].
      destruct (negb asg && _); [apply next_fair; [exact R0|apply fair_not_assigned]|]. apply next_dispatch. }
  destruct (e_self E m) as [k|] eqn:Qs; [|exact O]. destruct (c_hash E c); [exact O|].
  apply next_still; [exact R0|apply still_upd|]. intros _. apply next_bind.
  - apply next_pack_send; [exact R0|]. split; [reflexivity|]. exists [], h, m. split; [reflexivity|]. split; [reflexivity|congruence].
  - intros [|]; [apply fair_ret|apply fair_responsing].
Qed.
Lemma fair_loop v asg hk ms : fair (loop E v asg hk ms).
Proof.
  induction ms as [|[h m] ms IH]; cbn [loop]; [apply fair_ret|]. apply fair_bind; [apply fair_look|]. intros [c|]; [|apply fair_ret].
  change (next_to [] (bindp E (emit E (OHandle v h m)) (fun _ => bindp E (handle E v asg hk h m c) (fun _ => loop E v asg hk ms)))).
  apply next_emit. cbn [app]. apply next_bind; [apply next_handle|]. intros _. exact IH.
Qed.
Lemma fair_received v d : fair (process_received_data E v d).
Proof.
  unfold process_received_data. apply fair_bind; [apply fair_look|]. intros [c|]; [|apply fair_responsing].
  destruct (negb (c_conf E c)); [apply fair_expel|]. destruct (c_disc E c); [apply fair_ret|].
  destruct (chunk (e_get E) (e_sig E) (c_buf E c) d) as [[|e|] b].
  - apply fair_bind; [apply fair_upd|]. intros _. apply fair_loop.
  - apply fair_bind; [apply fair_upd|]. intros _. apply fair_responsing.
  - apply fair_panic.
Qed.
Lemma fair_step e : fair (step E e).
Proof.
  destruct e; cbn [step].
  - apply fair_bind; [apply fair_world|]. intros ok. apply fair_bind; [apply fair_emit; exact I|]. intros _. destruct ok; [apply fair_ret|apply fair_stop].
  - apply fair_ret.
  - apply fair_bind; [|intros; apply fair_ret]. apply fair_bind; [apply fair_look|]. intros [c|]; [apply fair_stop|].
    apply fair_bind; [apply fair_get_tab|]. intros t. apply fair_bind; [apply fair_world|]. intros bs.
    apply fair_bind; [apply fair_emit; exact I|]. intros _. apply fair_bind; [apply fair_emit_event|]. intros _. intros s. apply reasoned_nil.
  - apply fair_bind; [|intros; apply fair_ret]. apply fair_bind; [apply fair_look|]. intros [c|]; [|apply fair_ret].
    apply fair_bind; [intros s; apply reasoned_nil|]. intros _.
    apply fair_bind; [apply fair_get_tab|]. intros t. apply fair_bind; [apply fair_world|]. intros bs.
    apply fair_bind; [apply fair_emit; exact I|]. intros _. apply fair_bind; [apply fair_emit_event|]. intros _. apply fair_ret.
  - apply fair_bind; [apply fair_received|]. intros _. apply fair_ret.
  - apply fair_bind; [destruct u; [apply fair_ident_at|apply fair_ret]|]. intros i. apply fair_bind; [apply fair_emit_error|]. intros. apply fair_ret.
  - apply fair_bind; [destruct u; [apply fair_ident_at|apply fair_ret]|]. intros i. apply fair_bind; [apply fair_emit_error|]. intros. apply fair_ret.
  - apply fair_bind; [apply fair_emit_error|]. intros. apply fair_ret.
  - apply fair_bind; [apply fair_get_tab|]. intros t. apply fair_bind; [apply fair_world|]. intros bs.
    apply fair_bind; [apply fair_emit; exact I|]. intros _. apply fair_bind; [apply fair_emit_event|]. intros _. apply fair_ret.
  - apply fair_bind; [apply fair_look|]. intros [c|].
    + apply fair_bind; [apply fair_upd|]. intros _. apply fair_bind; [apply fair_emit; exact I|]. intros. apply fair_ret.
    + apply fair_bind; [apply fair_emit_error|]. intros. apply fair_ret.
  - apply fair_bind; [apply fair_look|]. intros [c|].
    + apply fair_bind; [apply fair_upd|]. intros _. apply fair_bind; [apply fair_emit; exact I|]. intros. apply fair_ret.
    + apply fair_bind; [apply fair_emit_error|]. intros. apply fair_ret.
  - apply fair_bind; [|intros; apply fair_ret]. intros s. unfold wp, confirm. destruct (s_conf E s) as [|v q]; [apply reasoned_nil|].
    match goal with |- context [bindp E ?m ?f ?z] => set (zz := z); assert (W : fair (bindp E m f)) end; [|exact (W zz)].
    apply fair_bind; [apply fair_look|]. intros [c|]; [|apply fair_emit_error]. apply fair_bind; [apply fair_upd|]. intros _.
    apply fair_bind; [apply fair_try_pack|]. intros [|]; [|apply fair_stop].
    apply fair_bind; [apply fair_send; reflexivity|]. intros [|]; [apply fair_ret|apply fair_stop].
  - apply fair_ret.
Qed.

(** ** Every answer to [u] belongs to a message taken from [u] *)
Variable u : uuid.
Inductive sub {A} : list A -> list A -> Prop :=
| sub_nil : sub [] []
| sub_skip x l k : sub l k -> sub l (x :: k)
| sub_take x l k : sub l k -> sub (x :: l) (x :: k).
Lemma sub_app {A} (a b c d : list A) : sub a b -> sub c d -> sub (a ++ c) (b ++ d).
Proof. induction 1; cbn; auto using sub_skip, sub_take. Qed.
Lemma sub_none {A} (k : list A) : sub [] k.
Proof. induction k; constructor; auto. Qed.
Lemma sub_length {A} (l k : list A) : sub l k -> (length l <= length k)%nat.
Proof. induction 1; cbn; lia. Qed.
Lemma sub_full {A} (l k : list A) : sub l k -> length l = length k -> l = k.
Proof.
  induction 1 as [|x l k S IH|x l k S IH]; cbn; intros Q; [reflexivity| |f_equal; auto].
  apply sub_length in S. lia.
Qed.

(** elements and their places *)
Definition index {A} (l : list A) : list (nat * A) := combine (seq 0 (length l)) l.
Lemma index_app {A} (l k : list A) : exists more, index (l ++ k) = index l ++ more /\ map snd more = k.
Proof.
  assert (G : forall i, exists more, combine (seq i (length (l ++ k))) (l ++ k) = combine (seq i (length l)) l ++ more /\ map snd more = k).
  { induction l as [|x l IH]; intros i.
    - exists (combine (seq i (length k)) k). split; [reflexivity|].
      revert i. induction k as [|x k IH]; intros i; cbn [length seq combine map snd]; [reflexivity|]. f_equal. apply IH.
    - destruct (IH (S i)) as (more & Q & M). exists more. cbn [app length seq combine]. rewrite Q. auto. }
  apply G.
Qed.
Lemma index_snoc {A} (l : list A) x : index (l ++ [x]) = index l ++ [(length l, x)].
Proof.
  unfold index. change (length l) with (0 + length l)%nat at 2. generalize 0%nat.
  induction l as [|y l IH]; intros i; cbn [app length seq combine]; [rewrite Nat.add_0_r; reflexivity|].
  f_equal. replace (i + S (length l))%nat with (S i + length l)%nat by lia. apply IH.
Qed.
Definition with_number {A} (n : N) (l : list (header * A)) := filter (fun x => h_seq (fst x) =? n) l.
Definition with_carried {A} (n : N) (l : list (N * A)) := filter (fun x => fst x mod 2 ^ 32 =? n) l.
Lemma index_filter {A} (f : A -> bool) (l : list A) : map snd (filter (fun x => f (snd x)) (index l)) = filter f l.
Proof.
  unfold index. generalize 0%nat. induction l as [|x l IH]; intros i; [reflexivity|]. cbn [length seq combine filter snd].
  destruct (f x); cbn [map snd]; rewrite IH; reflexivity.
Qed.
Definition numbered {A} (n : N) (l : list (header * A)) := filter (fun x => h_seq (fst (snd x)) =? n) (index l).
Definition carrying {A} (n : N) (l : list (N * A)) := filter (fun x => fst (snd x) mod 2 ^ 32 =? n) (index l).

Lemma numbered_length {A} n (l : list (header * A)) : length (numbered n l) = length (with_number n l).
Proof. unfold with_number. rewrite <- index_filter, map_length. reflexivity. Qed.
Lemma carrying_length {A} n (l : list (N * A)) : length (carrying n l) = length (with_carried n l).
Proof. unfold with_carried. rewrite <- index_filter, map_length. reflexivity. Qed.

(** the exchange that [p] belongs to: the message [i] of [u] is taken, and [p] is
    the message [k] to [u] *)
Definition exchange (t : list out) (i : nat) (h : header) (m : e_msg E) (k : nat) (p : payload (e_user E)) : Prop :=
  match p with
  | PAnswer x => exists t0 r ids res t2, t = t0 ++ OHandle u h m :: OCall u r m ids res :: OSend u (h_seq h) p true :: t2 /\
      length (handled_by E u t0) = i /\ length (sent_down E u t0) = k /\ e_request E m = Some r /\ x = answer_of res
  | PBeacon => exists t0 b ids t2, t = t0 ++ OHandle u h m :: OBeacon u b m ids true :: OSend u (h_seq h) p true :: t2 /\
      length (handled_by E u t0) = i /\ length (sent_down E u t0) = k /\ e_request E m = None /\ e_beacon E m = Some b
  | PSelf _ => e_self E m <> None
  | PHash _ => e_hash E m <> None
  | PConfirm | PBroadcast _ => False
  end.
Lemma exchange_app t t' i h m k p : exchange t i h m k p -> exchange (t ++ t') i h m k p.
Proof.
  destruct p; cbn [exchange]; auto.
  - intros (t0 & b & ids & t2 & -> & R). exists t0, b, ids, (t2 ++ t'). rewrite <- app_assoc. auto.
  - intros (t0 & r & ids & res & t2 & -> & R). exists t0, r, ids, res, (t2 ++ t'). rewrite <- app_assoc. auto.
Qed.

Lemma filter_none {A} (f : A -> bool) l : (forall x, In x l -> f x = false) -> filter f l = [].
Proof.
  induction l as [|x l IH]; intros Z; [reflexivity|]. cbn [filter]. rewrite (Z x (or_introl eq_refl)). apply IH. intros y J. apply Z. right. exact J.
Qed.

Local Notation reply := ((nat * (header * e_msg E)) * (nat * (N * payload (e_user E))))%type.
Definition replied (t : list out) (x : reply) : Prop :=
  let '((i, (h, m)), (k, (_, p))) := x in exchange t i h m k p.

Lemma replies n : n <> 0 -> forall t, reasoned t -> (forall h m, In (h, m) (handled_by E u t) -> h_seq h < 2 ^ 32) ->
  (forall j x, In (OSend u j (PBroadcast x) true) t -> j mod 2 ^ 32 <> n) ->
  exists R : list reply,
    map snd R = carrying n (sent_down E u t) /\ sub (map fst R) (numbered n (handled_by E u t)) /\ Forall (replied t) R.
Proof.
  intros N0 t. induction t as [t IH] using (well_founded_induction (well_founded_ltof _ (@length out))). unfold ltof in IH.
  intros RS HB NB. destruct t as [|o0 t0] using rev_ind; [exists []; repeat split; constructor|]. clear IHt0. rename o0 into o. rename t0 into t'.
  assert (HA : handled_by E u (t' ++ [o]) = handled_by E u t' ++ handled_by E u [o]) by apply flat_map_app.
  assert (SA : sent_down E u (t' ++ [o]) = sent_down E u t' ++ sent_down E u [o]) by apply flat_map_app.
  assert (GROW : forall R t1 t2, Forall (replied t1) R -> Forall (replied (t1 ++ t2)) R).
  { intros R t1 t2. apply Forall_impl. intros [[i [h m]] [k [j p]]]. apply exchange_app. }
  assert (REST : (forall x, In x (sent_down E u [o]) -> fst x mod 2 ^ 32 <> n) ->
    exists R : list reply,
    map snd R = carrying n (sent_down E u (t' ++ [o])) /\ sub (map fst R) (numbered n (handled_by E u (t' ++ [o]))) /\ Forall (replied (t' ++ [o])) R).
  { intros Z. destruct (IH t') as (R & R1 & R2 & R3).
    - rewrite app_length. cbn. lia.
    - apply (reasoned_prefix _ _ RS).
    - intros h m J. apply (HB h m). rewrite HA. apply in_app_iff. auto.
    - intros j x J. apply (NB j x). apply in_app_iff. auto.
    - exists R. split; [|split; [|apply GROW; exact R3]].
      + rewrite SA. unfold carrying in *. destruct (index_app (sent_down E u t') (sent_down E u [o])) as (more & -> & M).
        rewrite filter_app, R1. rewrite <- (app_nil_r (filter _ (index (sent_down E u t')))) at 1. f_equal. symmetry.
        apply filter_none. intros x J. apply N.eqb_neq. apply Z. rewrite <- M. apply in_map. exact J.
      + rewrite HA. unfold numbered in *. destruct (index_app (handled_by E u t') (handled_by E u [o])) as (more & -> & M).
        rewrite filter_app. rewrite <- (app_nil_r (map fst R)). apply sub_app; [exact R2|apply sub_none]. }
  destruct o as [| | | | |v j p ok| | | | | | | |]; try (apply REST; intros x []).
  destruct ok; [|apply REST; intros x []].
  destruct (N.eqb_spec v u) as [->|V]; [|apply REST; unfold sent_down; cbn [flat_map]; destruct (N.eqb_spec v u); [congruence|intros x []]].
  assert (S1 : sent_down E u [OSend u j p true] = [(j, p)]) by (unfold sent_down; cbn [flat_map]; rewrite N.eqb_refl; reflexivity).
  destruct (N.eqb_spec (j mod 2 ^ 32) n) as [J|J]; [|apply REST; rewrite S1; intros x [<-|[]]; exact J].
  pose proof (RS t' u j p true [] eq_refl) as W.
  (* the last message answers [h, m], taken at the end of [t1] *)
  assert (LAST : forall t1 l h m, t' = t1 ++ OHandle u h m :: l -> handled_by E u l = [] -> sent_down E u l = [] -> j = h_seq h ->
    exchange (t' ++ [OSend u j p true]) (length (handled_by E u t1)) h m (length (sent_down E u t1)) p ->
    exists R : list reply,
    map snd R = carrying n (sent_down E u (t' ++ [OSend u j p true])) /\ sub (map fst R) (numbered n (handled_by E u (t' ++ [OSend u j p true]))) /\
    Forall (replied (t' ++ [OSend u j p true])) R).
  { intros t1 l h m Q H1 Sl Qj X.
    assert (Ht : handled_by E u t' = handled_by E u t1 ++ [(h, m)]).
    { rewrite Q. unfold handled_by in *. rewrite flat_map_app. cbn [flat_map]. rewrite N.eqb_refl, H1. reflexivity. }
    assert (St : sent_down E u t' = sent_down E u t1).
    { rewrite Q. unfold sent_down in *. rewrite flat_map_app. cbn [flat_map app]. rewrite Sl, app_nil_r. reflexivity. }
    destruct (IH t1) as (R & R1 & R2 & R3).
    - rewrite Q, !app_length. cbn. lia.
    - apply (reasoned_prefix t1 (OHandle u h m :: l)). rewrite <- Q. apply (reasoned_prefix _ _ RS).
    - intros h0 m0 K. apply (HB h0 m0). rewrite HA, Ht, !in_app_iff. auto.
    - intros k x K. apply (NB k x). rewrite Q, !in_app_iff. auto.
    - assert (B : h_seq h < 2 ^ 32) by (apply (HB h m); rewrite HA, Ht, !in_app_iff; left; right; left; reflexivity).
      assert (Hn : (h_seq h =? n) = true) by (rewrite <- Qj; rewrite <- Qj in B; rewrite N.mod_small in J by exact B; apply N.eqb_eq; exact J).
      exists (R ++ [((length (handled_by E u t1), (h, m)), (length (sent_down E u t1), (j, p)))]). split; [|split].
      + rewrite map_app, R1, SA, St, S1. unfold carrying. rewrite index_snoc, filter_app. f_equal. cbn [map filter fst snd].
        apply N.eqb_eq in J. rewrite J. reflexivity.
      + rewrite map_app, HA, Ht. change (handled_by E u [OSend u j p true]) with (@nil (header * e_msg E)). rewrite app_nil_r.
        unfold numbered in *. rewrite index_snoc, filter_app. apply sub_app; [exact R2|].
        cbn [map filter fst snd]. rewrite Hn. apply sub_take, sub_none.
      + apply Forall_app. split; [|constructor; [exact X|constructor]]. rewrite Q, <- app_assoc. apply GROW. exact R3. }
  destruct p; cbn [reason] in W.
  - destruct W as (_ & t0 & h & m & Q & Qj & C). apply (LAST t0 [] h m Q); auto.
  - destruct W as (t0 & h & m & pw & Q & Qj & C & _). apply (LAST t0 [] h m Q); auto. cbn [exchange]. congruence.
  - subst j. elim N0. rewrite <- J. reflexivity.
  - destruct W as (t0 & h & m & b & ids & Q & Qj & C). apply (LAST t0 [OBeacon u b m ids true] h m Q); auto.
    exists t0, b, ids, []. split; [|auto]. rewrite Q, <- app_assoc, <- Qj. reflexivity.
  - destruct W as (t0 & h & m & r & ids & res & Q & Qj & C1 & C2). apply (LAST t0 [OCall u r m ids res] h m Q); auto.
    exists t0, r, ids, res, []. split; [|auto]. rewrite Q, <- app_assoc, <- Qj. reflexivity.
  - elim (NB j x); [apply in_app_iff; right; left; reflexivity|exact J].
Qed.
End Producer.

(** ** The consumer *)
Section Consumer.
Variable CE : ConsumerModel.cenv.

Definition dull (t : list (ConsumerModel.out CE)) : bool :=
  forallb (fun o => match o with ConsumerModel.XMatch _ _ _ _ => false | _ => true end) t.
Lemma dull_app a b : dull (a ++ b) = dull a && dull b. Proof. apply forallb_app. Qed.

Lemma fails_dull a k e s : dull (snd (ConsumerModel.fails CE a k e s)) = true.
Proof. destruct k; reflexivity. Qed.
Lemma request_dull a k n p s : dull (snd (ConsumerModel.request CE a k n p s)) = true.
Proof. unfold ConsumerModel.request. destruct (ConsumerModel.api_up CE s); [reflexivity|apply fails_dull]. Qed.
Lemma ask_dull a k c sg s : dull (snd (ConsumerModel.ask CE a k c sg s)) = true.
Proof. unfold ConsumerModel.ask. destruct (ConsumerModel.api_up CE s); [reflexivity|apply fails_dull]. Qed.
Lemma dispatch_dull m s : dull (snd (ConsumerModel.dispatch CE m s)) = true.
Proof. unfold ConsumerModel.dispatch. destruct (ConsumerModel.x_broadcast CE m); reflexivity. Qed.
Lemma not_accepted_dull m s : dull (snd (ConsumerModel.not_accepted CE m s)) = true.
Proof.
  unfold ConsumerModel.not_accepted. destruct (ConsumerModel.emit CE (ConsumerModel.EError CE ConsumerModel.XPending) s) as (s1, t) eqn:Q. injection Q as <- <-.
  pose proof (dispatch_dull m (ConsumerModel.set_emit CE (ConsumerModel.s_emit CE s ++ [ConsumerModel.EError CE ConsumerModel.XPending]) s)) as D.
  destruct (ConsumerModel.dispatch CE m _) as (s2, t2). cbn [snd] in *. rewrite dull_app, D. reflexivity.
Qed.

Lemma run_dull a ok s r : ConsumerModel.run_act CE a ok s = Some r -> dull (snd r) = true.
Proof.
  unfold ConsumerModel.run_act. destruct (ConsumerModel.act CE a (ConsumerModel.s_acts CE s)) as [[k sg]|]; [|discriminate].
  assert (Z : forall x y : ConsumerModel.st CE * list (ConsumerModel.out CE), dull (snd x) = true -> Some x = Some y -> dull (snd y) = true) by (intros x y Q R; injection R as <-; exact Q).
  destruct sg.
  1: apply Z; destruct k; try apply ask_dull; try apply fails_dull; destruct ok; [apply request_dull|apply fails_dull].
  all: try (destruct (ConsumerModel.has_sender CE a s); [discriminate|apply Z, fails_dull]).
  - apply Z, ask_dull.
  - apply Z; destruct k; try apply fails_dull; (destruct ok; [apply request_dull|apply fails_dull]).
  - apply Z; destruct k; try reflexivity.
    + destruct (ConsumerModel.x_self CE m); [|reflexivity]. destruct ok; [apply request_dull|reflexivity].
    + destruct (ConsumerModel.x_hash CE m) as [[x|]|]; reflexivity.
  - apply Z; destruct k; try apply fails_dull; reflexivity.
Qed.

Definition plain (t : list (ConsumerModel.out CE)) : bool :=
  forallb (fun o => match o with ConsumerModel.XMatch _ _ _ _ | ConsumerModel.XSend _ _ _ _ _ | ConsumerModel.XIn _ _ _ => false | _ => true end) t.
Definition settles (t : list (ConsumerModel.out CE)) : Prop := exists a n m t2, t = ConsumerModel.XMatch CE a n m :: t2 /\ plain t2 = true.
Lemma api_dull c ok s r : ConsumerModel.api_cmd CE c ok s = Some r -> dull (snd r) = true \/ settles (snd r).
Proof.
  assert (Z : forall x y : ConsumerModel.st CE * list (ConsumerModel.out CE), dull (snd x) = true -> Some x = Some y -> dull (snd y) = true \/ settles (snd y)) by (intros x y Q R; injection R as <-; auto).
  assert (Y : forall x y : ConsumerModel.st CE * list (ConsumerModel.out CE), settles (snd x) -> Some x = Some y -> dull (snd y) = true \/ settles (snd y)) by (intros x y Q R; injection R as <-; auto).
  destruct c; cbn [ConsumerModel.api_cmd].
  - destruct (ConsumerModel.pfind n (ConsumerModel.s_pend CE s)); [apply Z; reflexivity|]. destruct ok; apply Z; reflexivity.
  - destruct (ConsumerModel.pfind n (ConsumerModel.s_pend CE s)).
    + destruct (ConsumerModel.act CE n0 (ConsumerModel.s_acts CE s)) as [[k []]|]; try (apply Z; reflexivity).
      cbn [ConsumerModel.s_msg ConsumerModel.go ConsumerModel.set_acts ConsumerModel.set_api].
      destruct (ConsumerModel.s_msg CE _) as [| |h m0 [b|]|]; apply Y; eexists _, _, _, _; (split; reflexivity).
    + destruct (ConsumerModel.s_msg CE s) as [| |h m0 [b|]|]; apply Z; reflexivity.
  - destruct (ConsumerModel.msg_up CE s); apply Z; reflexivity.
  - destruct (ConsumerModel.act CE a (ConsumerModel.s_acts CE s)) as [[k []]|]; apply Z; reflexivity.
  - destruct (ConsumerModel.s_shut CE s); try (apply Z; reflexivity). destruct (Nat.ltb _ 2); [apply Z; reflexivity|discriminate].
Qed.

(** only one step settles a request *)
Lemma fire_dull l c r : ConsumerModel.fire CE l c = Some r -> dull (snd r) = true \/ settles (snd r).
Proof.
  assert (Z : forall x y : ConsumerModel.st CE * list (ConsumerModel.out CE), dull (snd x) = true -> Some x = Some y -> dull (snd y) = true) by (intros x y Q R; injection R as <-; exact Q).
  destruct l; cbn [ConsumerModel.fire].
  { destruct (ConsumerModel.user_kind CE k); [|discriminate]. intros R. injection R as <-. left. reflexivity. }
  all: match goal with |- context [ConsumerModel.api_cmd] => idtac | _ => intros F; left; revert F end.
  - destruct (ConsumerModel.act CE a (ConsumerModel.s_acts CE c)) as [[k sg]|]; [|discriminate]. destruct (ConsumerModel.user_kind CE k); [|discriminate]. apply Z. reflexivity.
  - apply Z. reflexivity.
  - apply run_dull.
  - destruct (ConsumerModel.act CE a (ConsumerModel.s_acts CE c)) as [[[] []]|]; try discriminate; apply Z; reflexivity.
  - destruct (ConsumerModel.api_up CE c); [|discriminate]. destruct (ConsumerModel.s_q CE c) as [|q0 q]; [discriminate|]. apply api_dull.
  - destruct (ConsumerModel.api_up CE c && ConsumerModel.s_cancel CE c); [|discriminate]. apply Z. reflexivity.
  - destruct (ConsumerModel.s_msg CE c); try discriminate. apply Z. destruct e; try reflexivity. cbn [ConsumerModel.client_event].
    destruct (chunk (ConsumerModel.x_get CE) (ConsumerModel.x_sig CE) (ConsumerModel.s_buf CE c) data) as [[|er|] b]; reflexivity.
  - destruct (ConsumerModel.s_msg CE c); try discriminate. apply Z. reflexivity.
  - destruct (ConsumerModel.s_msg CE c); try discriminate. apply Z. unfold ConsumerModel.next_msg. destruct (next (ConsumerModel.s_buf CE c)) as [[[h m]|] b]; [|reflexivity].
    destruct (ConsumerModel.x_confirm CE m); [reflexivity|]. destruct (ConsumerModel.api_up CE c); [reflexivity|].
    match goal with |- context [ConsumerModel.not_accepted CE m ?s] => pose proof (not_accepted_dull m s) as N; destruct (ConsumerModel.not_accepted CE m s) end. exact N.
  - destruct (ConsumerModel.s_msg CE c) as [| |h m [[|]|]|]; try discriminate.
    + apply Z. reflexivity. + apply Z, dispatch_dull. + destruct (ConsumerModel.api_up CE c); [discriminate|]. apply Z, not_accepted_dull.
  - destruct (ConsumerModel.s_msg CE c); try discriminate. destruct (ConsumerModel.s_qauth CE c) as [|x q]; [discriminate|]. apply Z.
    destruct x as [[v|e]|a]; cbn [ConsumerModel.auth_msg]; [destruct (ConsumerModel.x_uuid CE v); reflexivity|reflexivity|].
    destruct (ConsumerModel.act CE a _) as [[k []]|]; reflexivity.
  - destruct (ConsumerModel.s_msg CE c); try discriminate. destruct (ConsumerModel.s_cancel CE c); [|discriminate]. apply Z. reflexivity.
  - destruct (ConsumerModel.s_cli CE c); [discriminate|]. destruct ok; apply Z; reflexivity.
  - destruct (ConsumerModel.s_cli CE c); [discriminate|]. destruct (ConsumerModel.s_cancel CE c); [|discriminate]. apply Z. reflexivity.
  - destruct (ConsumerModel.s_shut CE c); try discriminate. destruct (ConsumerModel.s_qshut CE c); [discriminate|]. apply Z. reflexivity.
  - destruct (ConsumerModel.s_shut CE c); try discriminate. destruct (ConsumerModel.s_cancel CE c); [|discriminate]. apply Z. reflexivity.
  - destruct (ConsumerModel.s_api CE c); [|discriminate]. destruct (ConsumerModel.s_msg CE c); try discriminate. destruct (ConsumerModel.s_cli CE c); [|discriminate].
    destruct (ConsumerModel.s_done CE c); [discriminate|]. apply Z. reflexivity.
  - repeat match goal with |- context [match ?x with _ => _ end] => destruct x; try discriminate end; apply Z; reflexivity.
  - repeat match goal with |- context [match ?x with _ => _ end] => destruct x; try discriminate end; apply Z; reflexivity.
  - repeat match goal with |- context [match ?x with _ => _ end] => destruct x; try discriminate end; apply Z; reflexivity.
  - repeat match goal with |- context [match ?x with _ => _ end] => destruct x; try discriminate end; apply Z; reflexivity.
Qed.


Lemma fire_match l c c' t : ConsumerModel.fire CE l c = Some (c', t) ->
  forall l1 a n m l2, t = l1 ++ ConsumerModel.XMatch CE a n m :: l2 -> l1 = [] /\ plain l2 = true.
Proof.
  intros F l1 a n m l2 Q. assert (J : In (ConsumerModel.XMatch CE a n m) t) by (rewrite Q; apply in_elt).
  destruct (fire_dull _ _ _ F) as [W|(a' & n' & m' & t2 & W & P)]; cbn [snd] in W.
  - unfold dull in W. rewrite forallb_forall in W. discriminate (W _ J).
  - rewrite W in Q. destruct l1 as [|x l1]; cbn in Q.
    + injection Q as _ _ _ <-. auto.
    + exfalso. injection Q as _ Q. unfold plain in P. rewrite Q, forallb_app in P. cbn in P. rewrite andb_false_r in P. discriminate P.
Qed.
Lemma plain_nothing t : plain t = true -> sent_up CE t = [] /\ PropConsumerLife.read CE t = [].
Proof.
  induction t as [|o t IH]; [split; reflexivity|]. cbn [plain forallb]. intros P. apply andb_true_iff in P. destruct P as (P1 & P2).
  destruct (IH P2) as (I1 & I2). unfold sent_up, PropConsumerLife.read in *. cbn [flat_map]. rewrite I1, I2. destruct o; try discriminate P1; split; reflexivity.
Qed.

Definition matches (n : N) (t : list (ConsumerModel.out CE)) : nat :=
  length (filter (fun o => match o with ConsumerModel.XMatch _ _ k _ => k =? n | _ => false end) t).
Lemma matches_app n a b : matches n (a ++ b) = (matches n a + matches n b)%nat.
Proof. unfold matches. rewrite filter_app, app_length. reflexivity. Qed.
Lemma plain_matches n t : plain t = true -> matches n t = O.
Proof.
  induction t as [|o t IH]; [reflexivity|]. cbn [plain forallb]. intros P. apply andb_true_iff in P. destruct P as (P1 & P2).
  change (o :: t) with ([o] ++ t). rewrite matches_app, (IH P2). destruct o; try discriminate P1; reflexivity.
Qed.

Section Run.
Variable t : list (ConsumerModel.out CE).
Hypothesis X : ConsumerSpec.exec CE t.

Lemma sent_bound a n p ok : In (ConsumerModel.XSend CE a n p ok) t -> n < 2 ^ 32.
Proof.
  intros J. destruct (in_split _ _ J) as (t1 & t2 & Q). destruct (ConsumerSpec.at_send CE t X _ _ _ _ _ _ Q) as (P & _).
  destruct p; cbn [ConsumerTrace.paid] in P.
  - destruct P as (-> & _). lia.
  - destruct P as (-> & _). lia.
  - destruct P as (P & _). destruct (PropConsumer.C37_numbers CE t X) as (R & _).
    destruct (R a n) as (? & _); [rewrite Q; apply in_app_iff; auto|]. lia.
Qed.

(** a number is used again only when its message has been taken *)
Lemma sends_matches n t1 : forall t2, t = t1 ++ t2 ->
  length (with_carried n (sent_up CE t1)) = (matches n t1 + match ConsumerTrace2.owner CE n t1 with Some _ => 1 | None => 0 end)%nat.
Proof.
  induction t1 as [|o t1 IH] using rev_ind; intros t2 Q; [reflexivity|].
  rewrite <- app_assoc in Q. cbn [app] in Q. specialize (IH _ Q). rewrite matches_app. unfold ConsumerTrace2.owner. rewrite fold_left_app. cbn [fold_left].
  fold (ConsumerTrace2.owner CE n t1). unfold sent_up. rewrite flat_map_app. fold (sent_up CE t1). unfold with_carried. rewrite filter_app, app_length.
  fold (with_carried n (sent_up CE t1)). rewrite IH.
  destruct o; cbn [flat_map app filter length ConsumerTrace2.own]; try (unfold matches; cbn [filter length]; lia).
  - destruct ok; [|unfold matches; cbn [filter length app]; lia].
    assert (B : n0 < 2 ^ 32) by (eapply sent_bound; rewrite Q; apply in_elt).
    cbn [app filter fst]. rewrite (N.mod_small n0 _ B). destruct (ConsumerSpec.at_send CE t X _ _ _ _ _ _ Q) as (_ & O & _).
    rewrite (N.eqb_sym n n0). destruct (N.eqb_spec n0 n) as [->|D]; cbn [length]; [rewrite O|]; unfold matches; cbn [filter length]; lia.
  - destruct (ConsumerSpec.at_match CE t X _ _ _ _ _ Q) as (_ & O & _).
    unfold matches. cbn [filter]. rewrite (N.eqb_sym n n0). destruct (N.eqb_spec n0 n) as [->|D]; cbn [length]; [rewrite O|]; lia.
Qed.

(** every message taken for an answer has been read *)
Lemma matches_reads n t1 : forall t2, t = t1 ++ t2 ->
  (matches n t1 + match ConsumerTrace2.cur CE t1 with Some (h, _) => if (h_seq h =? n)%N then 1 else 0 | None => 0 end
    <= length (with_number n (PropConsumerLife.read CE t1)))%nat.
Proof.
  induction t1 as [|o t1 IH] using rev_ind; intros t2 Q; [apply le_n|].
  rewrite <- app_assoc in Q. cbn [app] in Q. specialize (IH _ Q). rewrite matches_app. unfold ConsumerTrace2.cur. rewrite fold_left_app. cbn [fold_left].
  fold (ConsumerTrace2.cur CE t1). unfold PropConsumerLife.read. rewrite flat_map_app. fold (PropConsumerLife.read CE t1). unfold with_number. rewrite filter_app, app_length.
  fold (with_number n (PropConsumerLife.read CE t1)).
  destruct o; cbn [flat_map app filter length ConsumerTrace2.cur1]; try (unfold matches at 2; cbn [filter length]; lia).
  - destruct (ConsumerSpec.at_in CE t X _ _ _ _ Q) as (C & _). rewrite C in *. unfold matches at 2. cbn [filter length fst].
    destruct (h_seq h =? n) eqn:W; destruct (ConsumerModel.x_confirm CE m); cbn [length]; rewrite ?W; lia.
  - destruct (ConsumerSpec.at_match CE t X _ _ _ _ _ Q) as ((h & C & Hh) & _). rewrite C, Hh in IH. unfold matches at 2. cbn [filter].
    destruct (n0 =? n); cbn [length]; lia.
  - assert (D : forall x : option (header * ConsumerModel.x_msg CE), (x = None \/ x = ConsumerTrace2.cur CE t1) ->
      (match x with Some (h, _) => if (h_seq h =? n)%N then 1 else 0 | None => 0 end <=
       match ConsumerTrace2.cur CE t1 with Some (h, _) => if (h_seq h =? n)%N then 1 else 0 | None => 0 end)%nat) by (intros x [-> | ->]; lia).
    match goal with |- (_ + match ?x with _ => _ end <= _)%nat => specialize (D x) end.
    unfold matches at 2. cbn [filter length].
    assert (W : forall a b c d : nat, (a + b <= c -> d <= b -> a + 0 + d <= c + 0)%nat) by lia. eapply W; [exact IH|]. apply D.
    destruct e; auto. destruct e; auto.
Qed.
End Run.
End Consumer.

(** ** Both *)
Section Both.
Variable PE : ProducerModel.env.
Variable CE : ConsumerModel.cenv.
Variable K : codec PE CE.
Hypothesis COMPAT : compatible PE CE K.
Variable u : N.

Lemma reach_reasoned A y0 y : fresh PE CE u y0 -> reach PE CE K A u y0 y -> reasoned PE (y_pt _ _ y).
Proof.
  intros (_ & F & _). induction 1 as [|y1 y2 R IH M]; [rewrite F; apply reasoned_nil|].
  destruct M as [y e t s' r qs _ _ S _|y n t s' r qs _ _ S _|y n x ok qs t _|y l s' t qs _ _ _ _|y n s' t qs l _ _ _]; cbn [y_pt]; try exact IH; try (apply reasoned_app; [exact IH|]).
  - exact (ProducerProofs.wp_elim _ _ _ _ _ _ _ (fair_step PE e _) S).
  - exact (ProducerProofs.wp_elim _ _ _ _ _ _ _ (fair_step PE _ _) S).
  - apply reasoned_one. exact I.
Qed.

Lemma reach_cut A y0 y : fresh PE CE u y0 -> reach PE CE K A u y0 y -> forall t1 a n m t2, y_ct _ _ y = t1 ++ ConsumerModel.XMatch CE a n m :: t2 ->
  exists y1 l tail, reach PE CE K A u y0 y1 /\ y_ct _ _ y1 = t1 ++ ConsumerModel.XMatch CE a n m :: l /\ plain CE l = true /\ y_pt _ _ y = y_pt _ _ y1 ++ tail.
Proof.
  intros (_ & _ & _ & _ & _ & F & _). induction 1 as [|y1 y2 R IH M]; intros t1 a n m t2 Q; [rewrite F in Q; destruct t1; discriminate Q|].
  assert (C : forall l s' t, ConsumerModel.fire CE l (y_c _ _ y1) = Some (s', t) -> y_ct _ _ y2 = y_ct _ _ y1 ++ t -> y_pt _ _ y2 = y_pt _ _ y1 ->
    exists y3 l0 tail, reach PE CE K A u y0 y3 /\ y_ct _ _ y3 = t1 ++ ConsumerModel.XMatch CE a n m :: l0 /\ plain CE l0 = true /\ y_pt _ _ y2 = y_pt _ _ y3 ++ tail).
  { intros l s' t S Q1 Q2. rewrite Q1 in Q. destruct (split_app _ _ _ _ _ Q) as [(k & W)|(k & W1 & W2)].
    - destruct (IH _ _ _ _ _ W) as (y3 & l0 & tail & H). exists y3, l0, tail. rewrite Q2. exact H.
    - destruct (fire_match CE _ _ _ _ S _ _ _ _ _ W2) as (-> & P). exists y2, t2, []. split; [eapply reach_move; eauto|].
      split; [rewrite Q1, W1, app_nil_r in *; rewrite W2; reflexivity|]. split; [exact P|]. rewrite app_nil_r. reflexivity. }
  assert (S : forall t, y_ct _ _ y2 = y_ct _ _ y1 -> y_pt _ _ y2 = y_pt _ _ y1 ++ t ->
    exists y3 l0 tail, reach PE CE K A u y0 y3 /\ y_ct _ _ y3 = t1 ++ ConsumerModel.XMatch CE a n m :: l0 /\ plain CE l0 = true /\ y_pt _ _ y2 = y_pt _ _ y3 ++ tail).
  { intros t Q1 Q2. rewrite Q1 in Q. destruct (IH _ _ _ _ _ Q) as (y3 & l0 & tail & H1 & H2 & H3 & H4). exists y3, l0, (tail ++ t).
    rewrite Q2, H4, app_assoc. auto. }
  destruct M; [eapply S; reflexivity..|eapply C; [eassumption|reflexivity|reflexivity]|eapply C; [eassumption|reflexivity|reflexivity]].
Qed.

Definition ups_of (hm : header * ProducerModel.e_msg PE) (np : N * ConsumerModel.payload CE) : Prop :=
  h_seq (fst hm) = fst np mod 2 ^ 32 /\ ProducerModel.e_get PE (fst (k_up _ _ K (snd np))) (snd (k_up _ _ K (snd np))) = Ok (snd hm).
Definition downs_of (hm : header * ConsumerModel.x_msg CE) (np : N * ProducerModel.payload (ProducerModel.e_user PE)) : Prop :=
  h_seq (fst hm) = fst np mod 2 ^ 32 /\ ConsumerModel.x_get CE (fst (k_down _ _ K (snd np))) (snd (k_down _ _ K (snd np))) = Ok (snd hm).
Lemma ups_arrive ms qs : up_packets PE CE K ms qs -> Forall2 ups_of (flat_map (deliver (ProducerModel.e_get PE) (ProducerModel.e_sig PE)) qs) ms.
Proof.
  intros F. induction F as [|[n p] q ms qs (ts & ->) F IH]; [constructor|].
  destruct (y_up _ _ _ COMPAT p) as (_ & _ & m & Gm & _). cbn [flat_map].
  unfold deliver at 1. cbn [frame p_sig p_id p_body fst snd]. rewrite (y_sig _ _ _ COMPAT), N.eqb_refl, Gm. cbn [app].
  constructor; [|rewrite <- (y_sig _ _ _ COMPAT); exact IH]. split; [reflexivity|exact Gm].
Qed.
Lemma downs_arrive ms qs : down_packets PE CE K ms qs -> Forall2 downs_of (flat_map (deliver (ConsumerModel.x_get CE) (ConsumerModel.x_sig CE)) qs) ms.
Proof.
  intros F. induction F as [|[n p] q ms qs (ts & ->) F IH]; [constructor|].
  destruct (y_down _ _ _ COMPAT p) as (_ & _ & m & Gm & _). cbn [flat_map].
  unfold deliver at 1. cbn [frame p_sig p_id p_body fst snd]. rewrite <- (y_sig _ _ _ COMPAT), N.eqb_refl, Gm. cbn [app].
  constructor; [|rewrite (y_sig _ _ _ COMPAT); exact IH]. split; [reflexivity|exact Gm].
Qed.

(** lists that agree place by place *)
Definition placed {A B} (R : A -> B -> Prop) (x : nat * A) (y : nat * B) : Prop := fst x = fst y /\ R (snd x) (snd y).
Lemma forall2_length {A B} (R : A -> B -> Prop) l k : Forall2 R l k -> length l = length k.
Proof. induction 1; cbn [length]; congruence. Qed.
Lemma forall2_placed {A B} (R : A -> B -> Prop) l k : Forall2 R l k -> Forall2 (placed R) (index l) (index k).
Proof.
  unfold index. intros F. rewrite <- (forall2_length _ _ _ F). generalize 0%nat. induction F as [|x y l k H F IH]; intros i; cbn [length seq combine]; constructor; [split; auto|].
  apply IH.
Qed.
Lemma forall2_filter {A B} (R : A -> B -> Prop) f g l k : (forall x y, R x y -> f x = g y) -> Forall2 R l k -> Forall2 R (filter f l) (filter g k).
Proof.
  intros C F. induction F as [|x y l k H F IH]; [constructor|]. cbn [filter]. rewrite (C _ _ H). destruct (g y); [constructor|]; assumption.
Qed.
Lemma forall2_last {A B} (R : A -> B -> Prop) l x k y : Forall2 R (l ++ [x]) (k ++ [y]) -> R x y.
Proof.
  intros F. apply Forall2_app_inv_l in F. destruct F as (k1 & k2 & _ & F & Q). inversion F as [|? y' ? k3 H F' E1 E2]; subst. inversion F'; subst.
  apply app_inj_tail in Q. destruct Q as (_ & ->). exact H.
Qed.

(** The moment [m] is taken for the answer of [a]. *)
Lemma moment y ups downs t1 a n m l : inv PE CE K u y ups downs -> reasoned PE (y_pt _ _ y) ->
  y_ct _ _ y = t1 ++ ConsumerModel.XMatch CE a n m :: l -> plain CE l = true -> n <> 0 ->
  (forall j x, In (ProducerModel.OSend PE u j (ProducerModel.PBroadcast x) true) (y_pt _ _ y) -> j mod 2 ^ 32 <> n) ->
  exists l1 p l2 i1 hm i2 h mq q, t1 = l1 ++ ConsumerModel.XSend CE a n p true :: l2 /\ t1 = i1 ++ ConsumerModel.XIn CE hm m :: i2 /\
    h_seq h = n /\ ProducerModel.e_get PE (fst (k_up _ _ K p)) (snd (k_up _ _ K p)) = Ok mq /\
    exchange PE u (y_pt _ _ y) (length (sent_up CE l1)) h mq (length (PropConsumerLife.read CE i1)) q /\
    ConsumerModel.x_get CE (fst (k_down _ _ K q)) (snd (k_down _ _ K q)) = Ok m.
Proof.
  intros I RS Q PL N0 NB. pose proof (inv_exec _ _ _ _ _ _ _ I) as X.
  destruct (ConsumerSpec.at_match CE _ X _ _ _ _ _ Q) as ((h0 & CU & Hh0) & OW & _).
  destruct (ConsumerSpec.owner_sound CE _ _ _ OW) as (l1 & l2 & p & L & NM).
  destruct (ConsumerSpec.cur_sound CE _ X _ _ _ _ Q CU) as (i1 & i2 & J & _ & NI & _).
  destruct (plain_nothing CE _ PL) as (P1 & P2).
  assert (B : n < 2 ^ 32) by (eapply (sent_bound CE _ X); rewrite Q, L; apply in_app_iff; left; apply in_elt).
  (* what has been sent and read *)
  assert (SU : sent_up CE (y_ct _ _ y) = sent_up CE l1 ++ (n, p) :: sent_up CE l2).
  { rewrite Q, L. unfold sent_up in *. rewrite !flat_map_app. cbn [flat_map app]. rewrite P1, app_nil_r. reflexivity. }
  assert (RD : PropConsumerLife.read CE (y_ct _ _ y) = PropConsumerLife.read CE i1 ++ [(h0, m)]).
  { rewrite Q, J. unfold PropConsumerLife.read in *. rewrite !flat_map_app. cbn [flat_map app]. rewrite P2, app_nil_r. do 2 f_equal.
    clear -NI. induction i2 as [|o i2 IH]; [reflexivity|]. cbn [flat_map]. rewrite IH by (intros h' m' W; apply (NI h' m'); right; exact W).
    destruct o; try reflexivity. elim (NI h m). left. reflexivity. }
  (* the producer has taken a prefix of what was sent, the consumer of what was answered *)
  pose proof (ups_arrive _ _ (i_ups _ _ _ _ _ _ _ I)) as FU. destruct (i_hand _ _ _ _ _ _ _ I) as (more & H). rewrite H in FU.
  apply Forall2_app_inv_l in FU. destruct FU as (done & rest & FU & _ & SP).
  destruct (down_ok PE CE K COMPAT _ _ (i_downs _ _ _ _ _ _ _ I)) as (OK & GOOD).
  destruct (PropConsumerLife.reading CE downs [] OK (goods_calm _ _ _ GOOD) incomplete_nil _ _ _ (y_downs _ _ y) (i_run _ _ _ _ _ _ _ I)) as (j & _ & _ & RR & _).
  { rewrite app_nil_r. apply I. }
  pose proof (downs_arrive _ _ (i_downs _ _ _ _ _ _ _ I)) as FD. rewrite <- (firstn_skipn j downs), flat_map_app, <- RR, <- app_assoc in FD.
  apply Forall2_app_inv_l in FD. destruct FD as (d1 & d2 & FD & _ & SD).
  (* one reply for each message *)
  destruct (replies PE u n N0 _ RS) as (R & R1 & R2 & R3).
  { intros h m0 W. destruct (in_split _ _ W) as (x1 & x2 & W'). rewrite W' in FU.
    apply Forall2_app_inv_l in FU. destruct FU as (? & ? & _ & FU & _). inversion FU as [|? np ? ? (E & _)]; subst. cbn [fst] in E. rewrite E. apply N.mod_lt. discriminate. }
  { exact NB. }
  set (hand := handled_by PE u (y_pt _ _ y)) in *.
  assert (FUn : Forall2 (placed ups_of) (numbered n hand) (carrying n done)).
  { apply forall2_filter; [|apply forall2_placed; exact FU]. intros x z (_ & E & _). rewrite E. reflexivity. }
  assert (FDn : Forall2 (placed downs_of) (numbered n (PropConsumerLife.read CE (y_ct _ _ y))) (carrying n d1)).
  { apply forall2_filter; [|apply forall2_placed; exact FD]. intros x z (_ & E & _). rewrite E. reflexivity. }
  destruct (index_app done rest) as (mr & MR & _). destruct (index_app d1 d2) as (md & MD & _).
  assert (CU' : carrying n (sent_up CE (y_ct _ _ y)) = carrying n done ++ filter (fun x => fst (snd x) mod 2 ^ 32 =? n) mr)
    by (unfold carrying; rewrite SP, MR, filter_app; reflexivity).
  assert (CD' : carrying n (sent_down PE u (y_pt _ _ y)) = carrying n d1 ++ filter (fun x => fst (snd x) mod 2 ^ 32 =? n) md)
    by (unfold carrying; rewrite SD, MD, filter_app; reflexivity).
  (* counting *)
  assert (N1 : length (carrying n (sent_up CE (y_ct _ _ y))) = matches CE n (y_ct _ _ y)).
  { rewrite carrying_length. pose proof (sends_matches CE _ X n (y_ct _ _ y) [] (eq_sym (app_nil_r _))) as W.
    pose proof (sends_matches CE _ X n t1 _ Q) as W1. rewrite OW in W1.
    assert (Z : with_carried n (sent_up CE (y_ct _ _ y)) = with_carried n (sent_up CE t1)).
    { rewrite Q. unfold sent_up in *. rewrite flat_map_app. cbn [flat_map app]. rewrite P1, app_nil_r. reflexivity. }
    rewrite Z, W1, Q, matches_app. change (ConsumerModel.XMatch CE a n m :: l) with ([ConsumerModel.XMatch CE a n m] ++ l).
    rewrite matches_app, (plain_matches CE n l PL). unfold matches at 3. cbn [filter]. rewrite N.eqb_refl. cbn [length]. lia. }
  assert (N2 : (matches CE n (y_ct _ _ y) <= length (numbered n (PropConsumerLife.read CE (y_ct _ _ y))))%nat).
  { rewrite numbered_length. pose proof (matches_reads CE _ X n (y_ct _ _ y) [] (eq_sym (app_nil_r _))). lia. }
  assert (N3 : length (numbered n (PropConsumerLife.read CE (y_ct _ _ y))) = length (carrying n d1)) by (apply (forall2_length _ _ _ FDn)).
  assert (N4 : length (numbered n hand) = length (carrying n done)) by (apply (forall2_length _ _ _ FUn)).
  assert (N5 : length R = length (carrying n (sent_down PE u (y_pt _ _ y)))) by (rewrite <- R1, map_length; reflexivity).
  pose proof (sub_length _ _ R2) as N6. rewrite map_length in N6.
  rewrite CU', app_length in N1. rewrite CD', app_length in N5.
  assert (E1 : filter (fun x : nat * (N * ConsumerModel.payload CE) => fst (snd x) mod 2 ^ 32 =? n) mr = []) by (apply length_zero_iff_nil; lia).
  assert (E2 : filter (fun x : nat * (N * ProducerModel.payload (ProducerModel.e_user PE)) => fst (snd x) mod 2 ^ 32 =? n) md = []) by (apply length_zero_iff_nil; lia).
  assert (E3 : map fst R = numbered n hand) by (apply sub_full; [exact R2|]; rewrite map_length; lia).
  rewrite E1, app_nil_r in CU'. rewrite E2, app_nil_r in CD'. rewrite <- CU', <- E3 in FUn. rewrite <- CD', <- R1 in FDn.
  (* the last of each *)
  assert (TU : exists k, carrying n (sent_up CE (y_ct _ _ y)) = k ++ [(length (sent_up CE l1), (n, p))]).
  { assert (LU : length (with_carried n (sent_up CE l2)) = 0%nat).
    { assert (Q1 : y_ct _ _ y = (l1 ++ [ConsumerModel.XSend CE a n p true]) ++ l2 ++ ConsumerModel.XMatch CE a n m :: l) by (rewrite Q, L, <- !app_assoc; reflexivity).
      pose proof (sends_matches CE _ X n _ _ Q1) as W. pose proof (sends_matches CE _ X n t1 _ Q) as W1. rewrite OW, L in W1.
      assert (O : ConsumerTrace2.owner CE n (l1 ++ [ConsumerModel.XSend CE a n p true]) = Some a) by (unfold ConsumerTrace2.owner; rewrite fold_left_app; cbn [fold_left ConsumerTrace2.own]; rewrite N.eqb_refl; reflexivity).
      rewrite O in W. replace (l1 ++ ConsumerModel.XSend CE a n p true :: l2) with ((l1 ++ [ConsumerModel.XSend CE a n p true]) ++ l2) in W1 by (rewrite <- app_assoc; reflexivity).
      unfold sent_up in W1. rewrite flat_map_app in W1. fold (sent_up CE (l1 ++ [ConsumerModel.XSend CE a n p true])) in W1. fold (sent_up CE l2) in W1.
      unfold with_carried in *. rewrite filter_app, app_length in W1. rewrite matches_app in W1.
      assert (Z : matches CE n l2 = 0%nat).
      { unfold matches. apply length_zero_iff_nil. apply filter_none. intros o W2. destruct o; try reflexivity. apply N.eqb_neq. intros ->. elim (NM a0 m0 W2). }
      lia. }
    rewrite SU. replace (sent_up CE l1 ++ (n, p) :: sent_up CE l2) with ((sent_up CE l1 ++ [(n, p)]) ++ sent_up CE l2) by (rewrite <- app_assoc; reflexivity).
    destruct (index_app (sent_up CE l1 ++ [(n, p)]) (sent_up CE l2)) as (m2 & M2 & M2'). unfold carrying. rewrite M2, index_snoc, !filter_app.
    cbn [filter fst snd]. rewrite (N.mod_small n _ B), N.eqb_refl. eexists. rewrite (filter_none _ m2); [rewrite app_nil_r; reflexivity|].
    intros x W. destruct (fst (snd x) mod 2 ^ 32 =? n) eqn:W1; [|reflexivity]. exfalso. apply length_zero_iff_nil in LU.
    assert (W2 : In (snd x) (with_carried n (sent_up CE l2))) by (apply filter_In; split; [rewrite <- M2'; apply in_map; exact W|exact W1]). rewrite LU in W2. exact W2. }
  assert (TD : exists k, numbered n (PropConsumerLife.read CE (y_ct _ _ y)) = k ++ [(length (PropConsumerLife.read CE i1), (h0, m))]).
  { rewrite RD. unfold numbered. rewrite index_snoc, filter_app. cbn [filter fst snd]. rewrite Hh0, N.eqb_refl. eauto. }
  destruct TU as (ku & TU). destruct TD as (kd & TD). rewrite TU in FUn. rewrite TD in FDn.
  destruct R as [|r R _] using rev_ind; [apply forall2_length in FDn; rewrite app_length in FDn; cbn in FDn; lia|].
  rewrite map_app in FUn, FDn. cbn [map] in FUn, FDn. apply forall2_last in FUn. apply forall2_last in FDn.
  apply Forall_app in R3. destruct R3 as (_ & R3). inversion R3 as [|? ? R4 _]; subst.
  destruct r as ((i & (h & mq)) & (k & (jj & q))). destruct FUn as (F1 & F2 & F3). destruct FDn as (F4 & F5 & F6). cbn [fst snd] in *. subst i k.
  exists l1, p, l2, i1, h0, i2, h, mq, q. split; [reflexivity|]. split; [exact J|]. split; [rewrite F2; apply N.mod_small; exact B|]. auto.
Qed.
End Both.
