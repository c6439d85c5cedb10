(** A generated TypeScript producer left to itself: each of its own steps brings it
    nearer to rest, and a producer that is not at rest has such a step (C105). *)
From Coq Require Import List NArith Arith Bool Lia.
From Verif Require Import Bytes WireModel FrameModel FrameProofs TsModel TsReader ClientRest.
From Verif Require TsSystemProofs.
From Verif Require Import TsServerModel TsServerProofs TsServerTrace.
Import ListNotations.
Open Scope N_scope.

(** Sums over the numbers below [n] *)
Fixpoint upto (f : nat -> nat) (n : nat) : nat := match n with O => 0 | S k => upto f k + f k end.
Lemma upto_ext f g n : (forall k, (k < n)%nat -> f k = g k) -> upto f n = upto g n.
Proof. induction n as [|n IH]; intros H; [reflexivity|]. cbn [upto]. rewrite IH, H; auto. Qed.
Lemma upto_one f g n a : (a < n)%nat -> (f a < g a)%nat -> (forall k, k <> a -> f k = g k) -> (upto f n < upto g n)%nat.
Proof.
  intros L H E. induction n as [|n IH]; [lia|]. cbn [upto]. destruct (Nat.eq_dec a n) as [->|NE].
  - assert (X : upto f n = upto g n) by (apply upto_ext; intros k K; apply E; lia). lia.
  - assert (X : f n = g n) by (apply E; lia). specialize (IH ltac:(lia)). lia.
Qed.

(** A reader that has read the beginning of a stream of packets it understands can read
    what follows of it. *)
Lemma reads_on {M} (get : N -> bytes -> res M err) sig cs os b q0 q ps rest :
  ts_feeds get sig (mkBuf [] []) cs os (mkBuf b q0) ->
  Forall packet_ok ps -> Forall (quiet get sig) ps -> concat cs ++ rest = stream ps -> blen (stream ps) < 2 ^ 64 ->
  exists fuel x, ts_chunk get sig fuel (mkBuf b q) rest = Some x.
Proof.
  intros F PO QU EQ L.
  destruct (stream_prefix get sig ps (concat cs) rest [] PO TsSystemProofs.no_packet_nil) as (j & x & E1 & E2 & NP); [rewrite app_nil_r; exact EQ|].
  rewrite app_nil_r in E2.
  assert (SP : forall P, Forall P ps -> Forall P (firstn j ps) /\ Forall P (skipn j ps)).
  { intros P W. rewrite <- (firstn_skipn j ps) in W. apply Forall_app in W. exact W. }
  destruct (ts_feed_all get sig cs (firstn j ps) x (mkBuf [] [])) as (ns & G & S).
  { apply SP, PO. } { apply SP, QU. } { exact NP. } { rewrite <- E1. rewrite <- EQ, blen_app in L. lia. } { exists []. split; [reflexivity|exact TsSystemProofs.no_packet_nil]. } { exact E1. }
  destruct (ts_feeds_fun _ _ _ _ _ _ F _ _ G) as (_ & Q). injection Q as Q _.
  destruct (ts_chunk_done get sig (mkBuf b q) rest (skipn j ps) []) as (fuel & T).
  { apply SP, PO. } { apply SP, QU. } { exact TsSystemProofs.no_packet_nil. } { reflexivity. } { cbn [rb_buf]. rewrite Q, app_nil_r. exact E2. }
  exists fuel. eexists. exact T.
Qed.

Section Rest.
Variable E : qenv.
Local Notation M := (q_msg E).
Local Notation X := (q_out E).
Local Notation qst := (qst M X).
Local Notation qev := (qev M X).

(** The steps that follow from what the producer has received: the loop over the queue,
    the end of a function of the application, and continuations. *)
Definition own (l : qlabel X) : Prop :=
  match l with LNext | LEnd _ _ | LSent _ _ _ | LLast _ _ => True | _ => False end.

Definition queued (s : qst) (o : nat) : nat := match p_obj s o with Some c => length (rb_queue (k_buf c)) | None => 0 end.
Definition weight (x : option (task X)) : nat :=
  match x with Some j => match j_stage j with QRun => 3 | QSent _ => 2 | QLast => 1 | QDone => 0 end | None => 0 end.
Definition qrank (s : qst) : nat * (nat * nat) :=
  (upto (queued s) (p_objs s), ((match p_loop s with Some _ => 1 | None => 0 end)%nat, upto (fun t => weight (p_task s t)) (p_tasks s))).
Definition qbelow := lex lt (lex lt lt).

Lemma qbelow_wf : well_founded qbelow.
Proof. repeat (apply lex_wf; [exact lt_wf|]). exact lt_wf. Qed.

Lemma handle_queues s o c h m s' es : p_obj s o = Some c -> handle E s o c h m = (s', es) ->
  p_objs s' = p_objs s /\ forall v, queued s' v = queued s v.
Proof.
  intros O H. unfold handle in H.
  assert (PUT : forall c', length (rb_queue (k_buf c')) = length (rb_queue (k_buf c)) -> forall v, queued (put_obj s o c') v = queued s v).
  { intros c' EQ v. unfold queued, put_obj, updn. cbn [p_obj]. destruct (Nat.eqb_spec v o) as [->|]; [rewrite O; exact EQ|reflexivity]. }
  destruct (q_self E m && negb (k_hash c)); [injection H as <- _; split; [reflexivity|apply PUT; reflexivity]|].
  destruct (q_hash E m) as [[p w]|].
  - destruct (_ && _); injection H as <- _; (split; [reflexivity|]); [apply PUT; reflexivity|auto].
  - destruct (negb (k_hash c)); [injection H as <- _; auto|]. destruct (negb (k_key c)); [injection H as <- _; auto|].
    destruct (_ && _); [injection H as <- _; auto|]. destruct (q_for E m); injection H as <- _; auto.
Qed.

Lemma task_lower (s s' : qst) t j j' : (t < p_tasks s)%nat -> p_task s t = Some j -> (weight (Some j') < weight (Some j))%nat -> s' = put_task s t j' ->
  qbelow (qrank s') (qrank s).
Proof.
  intros L T W ->. right. split; [reflexivity|]. right. split; [reflexivity|].
  cbn [fst snd qrank put_task p_tasks p_task]. apply (upto_one _ _ _ t L).
  - cbv beta. unfold updn. rewrite Nat.eqb_refl, T. exact W.
  - intros k NE. cbv beta. unfold updn. destruct (Nat.eqb_spec k t); [contradiction|reflexivity].
Qed.

Lemma server_nearer s tr l s' es : inv E s tr -> own l -> fire E s l = Some (s', es) -> qbelow (qrank s') (qrank s).
Proof.
  intros I A F. destruct l as [v|v|v d f| |v|v|v|t r|t ok k|t ok|e r k]; try (elim A; fail); cbn [fire] in F.
  - destruct (p_loop s) as [o|] eqn:LP; [|discriminate F]. destruct (p_obj s o) as [c|] eqn:O; [|discriminate F].
    assert (B : (o < p_objs s)%nat).
    { destruct (Nat.lt_ge_cases o (p_objs s)) as [B|B]; [exact B|]. rewrite (i_fresh E _ _ I _ B) in O. discriminate O. }
    destruct (rb_queue (k_buf c)) as [|[h m] q] eqn:Q.
    + injection F as <- <-. right. split; [reflexivity|]. left. unfold qrank. cbn [fst snd put_loop p_loop]. rewrite LP. lia.
    + destruct (handle E _ o _ h m) as [s1 e1] eqn:H. injection F as <- <-.
      match type of H with handle E ?s0 _ ?c0 _ _ = _ => assert (O1 : p_obj s0 o = Some c0) by (unfold put_obj, updn; cbn [p_obj]; rewrite Nat.eqb_refl; reflexivity) end.
      destruct (handle_queues _ _ _ _ _ _ _ O1 H) as (N & QS).
      left. unfold qrank. cbn [fst]. rewrite N. cbn [put_obj p_objs]. apply (upto_one _ _ _ o B).
      * rewrite QS. unfold queued, put_obj, updn. cbn [p_obj]. rewrite Nat.eqb_refl, O, Q. cbn [put_buf k_buf rb_queue length]. lia.
      * intros k NE. rewrite QS. unfold queued, put_obj, updn. cbn [p_obj]. destruct (Nat.eqb_spec k o); [contradiction|reflexivity].
  - destruct (p_loop s); [discriminate F|]. destruct (p_task s t) as [j|] eqn:T; [|discriminate F].
    assert (B : (t < p_tasks s)%nat).
    { destruct (Nat.lt_ge_cases t (p_tasks s)) as [B|B]; [exact B|]. rewrite (proj1 (i_tfresh E _ _ I _ B)) in T. discriminate T. }
    destruct (j_stage j) eqn:G; try discriminate F. destruct (p_obj s (j_obj j)) as [c|]; [|discriminate F].
    unfold fail in F. destruct r as [|x ops packs]; [|destruct (j_kind j) as [[|] r]; [destruct (_ && _); [|destruct packs]|]];
      injection F as <- <-; (eapply (task_lower s _ t j); [exact B|exact T| |reflexivity]); cbn [weight j_stage]; rewrite G; lia.
  - destruct (p_loop s); [discriminate F|]. destruct (p_task s t) as [j|] eqn:T; [|discriminate F].
    assert (B : (t < p_tasks s)%nat).
    { destruct (Nat.lt_ge_cases t (p_tasks s)) as [B|B]; [exact B|]. rewrite (proj1 (i_tfresh E _ _ I _ B)) in T. discriminate T. }
    destruct (j_stage j) eqn:G; try discriminate F. destruct (p_obj s (j_obj j)) as [c|]; [|discriminate F].
    unfold fail in F. destruct (negb ok); [|destruct (broken E bs k)];
      injection F as <- <-; (eapply (task_lower s _ t j); [exact B|exact T| |reflexivity]); cbn [weight j_stage]; rewrite G; lia.
  - destruct (p_loop s); [discriminate F|]. destruct (p_task s t) as [j|] eqn:T; [|discriminate F].
    assert (B : (t < p_tasks s)%nat).
    { destruct (Nat.lt_ge_cases t (p_tasks s)) as [B|B]; [exact B|]. rewrite (proj1 (i_tfresh E _ _ I _ B)) in T. discriminate T. }
    destruct (j_stage j) eqn:G; try discriminate F. destruct (p_obj s (j_obj j)) as [c|]; [|discriminate F].
    unfold fail in F. destruct ok;
      injection F as <- <-; (eapply (task_lower s _ t j); [exact B|exact T| |reflexivity]); cbn [weight j_stage]; rewrite G; lia.
Qed.

(** The producer has no work of its own. *)
Definition idle (s : qst) : Prop := p_loop s = None /\ forall t j, p_task s t = Some j -> j_stage j = QDone.

Lemma below_or n (P : nat -> Prop) : (forall k, P k \/ ~ P k) -> (exists k, (k < n)%nat /\ P k) \/ forall k, (k < n)%nat -> ~ P k.
Proof.
  intros D. induction n as [|n [(k & L & H)|IH]].
  - right. intros k L. lia.
  - left. exists k. split; [lia|exact H].
  - destruct (D n) as [H|H]; [left; exists n; split; [lia|exact H]|].
    right. intros k L. destruct (Nat.eq_dec k n) as [->|]; [exact H|apply IH; lia].
Qed.

Lemma server_steps s tr : inv E s tr -> idle s \/ exists l s' es, own l /\ fire E s l = Some (s', es).
Proof.
  intros I. destruct (p_loop s) as [o|] eqn:LP.
  - right. exists LNext. cbn [fire]. rewrite LP. destruct (p_obj s o) as [c|] eqn:O; [|elim (i_loop E _ _ I _ LP O)].
    destruct (rb_queue (k_buf c)) as [|[h m] q]; [eexists _, _; split; [exact Logic.I|reflexivity]|].
    destruct (handle E _ o _ h m) as [s1 e1]. eexists _, _. split; [exact Logic.I|reflexivity].
  - destruct (below_or (p_tasks s) (fun t => (0 < weight (p_task s t))%nat)) as [(t & L & W)|H]; [intros k; lia| |].
    + right. destruct (i_task E _ _ I t L) as (j & c & T & O & _). rewrite T in W. cbn [weight] in W.
      destruct (j_stage j) as [|bs| |] eqn:G; try lia.
      * exists (LEnd t HReject). cbn [fire]. rewrite LP, T, G, O. unfold fail. eexists _, _. split; [exact Logic.I|reflexivity].
      * exists (LSent t false None). cbn [fire]. rewrite LP, T, G, O. unfold fail. cbn [negb]. eexists _, _. split; [exact Logic.I|reflexivity].
      * exists (LLast t true). cbn [fire]. rewrite LP, T, G, O. eexists _, _. split; [exact Logic.I|reflexivity].
    + left. split; [exact LP|]. intros t j T.
      destruct (Nat.lt_ge_cases t (p_tasks s)) as [B|B]; [|rewrite (proj1 (i_tfresh E _ _ I _ B)) in T; discriminate T].
      specialize (H t B). rewrite T in H. cbn [weight] in H. destruct (j_stage j); try (exfalso; apply H; lia). reflexivity.
Qed.

(** An idle producer takes bytes of a client if it can read them. *)
Lemma server_takes s tr u o ups rest : inv E s tr -> fed E s tr o -> p_loop s = None -> p_map s u = Some o ->
  (forall c, p_obj s o = Some c -> k_disc c = false ->
     Forall packet_ok ups /\ Forall (quiet (q_get E) (q_sig E)) ups /\ concat (chunks E o tr) ++ rest = stream ups /\ blen (stream ups) < 2 ^ 64) ->
  exists fuel s' es, fire E s (LData u rest fuel) = Some (s', es).
Proof.
  intros I FD LP MP H. destruct (i_map E _ _ I _ _ MP) as (c & O & _). unfold fed in FD. rewrite O in FD. destruct FD as (FD & _).
  specialize (H c O). destruct (k_disc c) eqn:KD.
  - exists 0%nat. cbn [fire]. rewrite LP, MP, O, KD. eexists _, _. reflexivity.
  - destruct (H eq_refl) as (PK & QU & EQ & L). destruct (reads_on _ _ _ _ _ _ (rb_queue (k_buf c)) _ _ FD PK QU EQ L) as (fuel & [r b] & T).
    exists fuel. cbn [fire]. rewrite LP, MP, O, KD. destruct (k_buf c) as [bb qq]. cbn [rb_buf rb_queue] in T. rewrite T.
    destruct r as [[|n]|]; eexists _, _; reflexivity.
Qed.
End Rest.
