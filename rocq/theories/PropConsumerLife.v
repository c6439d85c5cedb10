(** Further properties of a generated consumer: what it reads (C58), and what it
    takes to keep a connection alive (C59). *)
From Coq Require Import List NArith Bool Lia Arith.
From Coq Require Import Strings.Byte.
From Verif Require Import Bytes WireModel FrameModel FrameProofs.
From Verif Require Import ConsumerModel ConsumerProofs ConsumerInv ConsumerTrace ConsumerTrace2 ConsumerGood ConsumerSpec ConsumerLive PropConsumer.
Import ListNotations.

Section Life.
Variable E : cenv.
Notation out := (out E).
Notation st := (st E).
Notation label := (label E).

(** * C58: what is read *)

(** the bytes the transport has delivered, the messages taken from the buffer *)
Definition delivered (ls : list label) : bytes := flat_map (fun l => match l with LEvent _ (InBinary d) => d | _ => [] end) ls.
Definition read (t : list out) : list (header * x_msg E) := flat_map (fun o => match o with XIn _ h m => [(h, m)] | _ => [] end) t.

Lemma fire_buf (l : label) (s s' : st) t : fire E l s = Some (s', t) ->
  match l with
  | LEvent _ (InBinary d) => s_msg E s = MIdle E /\ read t = [] /\
      match chunk (x_get E) (x_sig E) (s_buf E s) d with
      | (COk, b) => s_buf E s' = b /\ s_msg E s' = MDrain E
      | (CErr _, b) => s_buf E s' = b
      | (CPanic, _) => True
      end
  | LNext _ => s_msg E s = MDrain E /\
      match next (s_buf E s) with
      | (None, b) => s_buf E s' = b /\ read t = []
      | (Some x, b) => s_buf E s' = b /\ read t = [x] /\ s_msg E s' <> MIdle E
      end
  | _ => s_buf E s' = s_buf E s /\ read t = [] /\ (s_msg E s' = MIdle E -> s_msg E s = MIdle E)
  end.
Proof.
  intros F. destruct l; cbn [fire] in F.
  - destruct (user_kind E k); [|discriminate]. injection F as <- <-. auto.
  - destruct (act E a (s_acts E s)) as [[k sg]|]; [|discriminate]. destruct (user_kind E k); [|discriminate]. injection F as <- <-. auto.
  - injection F as <- <-. auto.
  - unfold run_act in F. destruct (act E a (s_acts E s)) as [[k sg]|]; [|discriminate].
    unfold ask, request, fails, end_auth, return_ in F.
    destruct sg; destruct k;
    repeat match type of F with
      | context [if ?b then _ else _] => destruct b eqn:?
      | context [match ?x with _ => _ end] => destruct x eqn:?
      end; try discriminate F; injection F as <- <-; cbn; auto.
  - destruct (act E a (s_acts E s)) as [[[] []]|]; try discriminate; injection F as <- <-; auto.
  - destruct (api_up E s); [|discriminate]. destruct (s_q E s) as [|c q]; [discriminate|].
    unfold api_cmd, end_api in F. destruct c; cbn -[next_seq] in F;
    repeat match type of F with
      | context [if ?b then _ else _] => destruct b eqn:?
      | context [match ?x with _ => _ end] => destruct x eqn:?
      end; try discriminate F; try (injection F as <- <-); cbn; auto; try discriminate.
    all: repeat match goal with H : (_, _) = (_, _) |- _ => injection H as <- <- | H : match ?x with _ => _ end = (_, _) |- _ => destruct x eqn:? end;
      cbn; auto; repeat split; auto; try discriminate; intros; congruence.
  - destruct (api_up E s && s_cancel E s); [|discriminate]. injection F as <- <-. auto.
  - destruct (s_msg E s) eqn:MS; try discriminate. destruct e; cbn [client_event emit] in F.
    2-5: injection F as <- <-; cbn; auto.
    destruct (chunk (x_get E) (x_sig E) (s_buf E s) data) as [[|er|] b]; cbn [emit crash] in F; injection F as <- <-; cbn; auto.
  - destruct (s_msg E s) eqn:MS; try discriminate. injection F as <- <-. cbn. repeat split; auto.
  - destruct (s_msg E s) eqn:MS; try discriminate. split; [reflexivity|]. unfold next_msg in F.
    destruct (next (s_buf E s)) as [[[h m]|] b]; [|injection F as <- <-; auto].
    destruct (x_confirm E m); [injection F as <- <-; cbn; repeat split; auto; discriminate|].
    destruct (api_up E s); [injection F as <- <-; cbn; repeat split; auto; discriminate|].
    unfold not_accepted, dispatch, emit in F. destruct (x_broadcast E m); injection F as <- <-; cbn; repeat split; auto; discriminate.
  - unfold not_accepted, dispatch, emit in F. destruct (s_msg E s) as [| |h m [[|]|]|] eqn:MS; try discriminate.
    + injection F as <- <-. cbn. repeat split; auto; discriminate.
    + destruct (x_broadcast E m); injection F as <- <-; cbn; repeat split; auto; discriminate.
    + destruct (api_up E s); [discriminate|]. destruct (x_broadcast E m); injection F as <- <-; cbn; repeat split; auto; discriminate.
  - destruct (s_msg E s) eqn:MS; try discriminate. destruct (s_qauth E s) as [|x q]; [discriminate|].
    destruct x as [[u|e]|a]; cbn in F.
    + destruct (x_uuid E u); injection F as <- <-; cbn; auto.
    + injection F as <- <-; cbn; auto.
    + destruct (act E a (s_acts E s)) as [[k []]|]; injection F as <- <-; cbn; auto.
  - destruct (s_msg E s) eqn:MS; try discriminate. destruct (s_cancel E s); [|discriminate]. injection F as <- <-. cbn. auto.
  - destruct (s_cli E s); [discriminate|]. destruct ok; cbn in F; injection F as <- <-; cbn; auto.
  - destruct (s_cli E s); [discriminate|]. destruct (s_cancel E s); [|discriminate]. cbn in F. injection F as <- <-; cbn; auto.
  - destruct (s_shut E s); try discriminate. destruct (s_qshut E s); [discriminate|]. injection F as <- <-; cbn; auto.
  - destruct (s_shut E s); try discriminate. destruct (s_cancel E s); [|discriminate]. injection F as <- <-; cbn; auto.
  - destruct (s_api E s); [|discriminate]. destruct (s_msg E s) eqn:MS; try discriminate. destruct (s_cli E s); [|discriminate].
    destruct (s_done E s); [discriminate|]. cbn in F. injection F as <- <-; cbn; repeat split; auto; intros; congruence.
  - destruct (s_api E s); [|discriminate]. destruct (s_msg E s) eqn:MS; try discriminate. destruct (s_cli E s); [|discriminate].
    destruct (s_emit E s); [|discriminate]. destruct (s_hand E s); [discriminate|].
    destruct (s_done E s && negb (s_over E s)); [|discriminate].
    destruct (s_shut E s); [discriminate| |].
    2: injection F as <- <-; cbn; repeat split; auto; intros; congruence.
    cbn zeta in F. destruct (act E a (s_acts E (set_over E s))) as [[k []]|] in F; injection F as <- <-; cbn; repeat split; auto; intros; congruence.
  - destruct (s_emit E s); [discriminate|]. destruct (s_hand E s); [discriminate|]. injection F as <- <-; cbn; auto.
  - destruct (s_hand E s) as [[|]|]; try discriminate. destruct (act E a (s_acts E s)) as [[k sg]|]; [|discriminate].
    destruct (user_kind E k); [|discriminate]. injection F as <- <-; cbn; auto.
  - destruct (s_hand E s) as [[b|]|]; try discriminate.
    + destruct (act E b (s_acts E s)); [discriminate|]. injection F as <- <-; cbn; auto.
    + injection F as <- <-; cbn; auto.
Qed.

Lemma runs_snoc ls l : forall s s2 t, runs E (ls ++ [l]) s = Some (s2, t) ->
  exists s1 t1 t2, runs E ls s = Some (s1, t1) /\ fire E l s1 = Some (s2, t2) /\ t = t1 ++ t2.
Proof.
  induction ls as [|x ls IH]; intros s s2 t R; cbn in R.
  - destruct (fire E l s) as [[s1 t1]|] eqn:F; [|discriminate]. injection R as <- <-. exists s, [], t1. rewrite app_nil_r. auto.
  - destruct (fire E x s) as [[s1 t1]|] eqn:F; [|discriminate]. destruct (runs E (ls ++ [l]) s1) as [[s3 t3]|] eqn:R1; [|discriminate].
    injection R as <- <-. destruct (IH _ _ _ R1) as (s4&t4&t5&R4&F4&->). exists s4, (t1 ++ t4), t5. cbn. rewrite F, R4.
    rewrite app_assoc. auto.
Qed.

Lemma reading (ps : list packet) (tail : bytes) : Forall packet_ok ps -> Forall (calm (x_get E) (x_sig E)) ps -> incomplete tail ->
  forall ls s t rem, runs E ls (start E) = Some (s, t) -> delivered ls ++ rem = stream ps ++ tail ->
  exists j, (j <= length ps)%nat /\ rb_buf (s_buf E s) ++ rem = stream (skipn j ps) ++ tail
    /\ read t ++ rb_queue (s_buf E s) = flat_map (deliver (x_get E) (x_sig E)) (firstn j ps)
    /\ (Forall (good (x_get E) (x_sig E)) ps ->
        at_rest (rb_buf (s_buf E s)) (skipn j ps) /\ (s_msg E s = MIdle E -> rb_queue (s_buf E s) = [])).
Proof.
  intros OK CALM INC. induction ls as [|l ls IH] using rev_ind; intros s t rem R Q.
  - injection R as <- <-. exists O. cbn [skipn firstn flat_map start s_buf rbuf_new rb_buf rb_queue app read].
    split; [lia|]. split; [exact Q|]. split; [reflexivity|]. intros _. split; [|reflexivity].
    destruct ps as [|p ps]; cbn [at_rest]; [exact I|]. rewrite wire_blen. unfold blen at 1. cbn [length N.of_nat]. lia.
  - destruct (runs_snoc _ _ _ _ _ R) as (s1&t1&t2&R1&F&->). pose proof (fire_buf _ _ _ _ F) as B.
    unfold delivered in Q. rewrite flat_map_app in Q. cbn [flat_map] in Q. fold (delivered ls) in Q. rewrite app_nil_r in Q.
    assert (RA : read (t1 ++ t2) = read t1 ++ read t2) by (unfold read; apply flat_map_app).
    assert (SAME : delivered ls ++ rem = stream ps ++ tail -> s_buf E s = s_buf E s1 -> read t2 = [] ->
      (s_msg E s = MIdle E -> s_msg E s1 = MIdle E) ->
      exists j, (j <= length ps)%nat /\ rb_buf (s_buf E s) ++ rem = stream (skipn j ps) ++ tail
        /\ read (t1 ++ t2) ++ rb_queue (s_buf E s) = flat_map (deliver (x_get E) (x_sig E)) (firstn j ps)
        /\ (Forall (good (x_get E) (x_sig E)) ps ->
            at_rest (rb_buf (s_buf E s)) (skipn j ps) /\ (s_msg E s = MIdle E -> rb_queue (s_buf E s) = []))).
    { intros Q' -> E2 MI. destruct (IH s1 t1 rem R1 Q') as (j&J&B1&B2&B3). exists j. rewrite RA, E2, app_nil_r.
      split; [exact J|]. split; [exact B1|]. split; [exact B2|]. intros G. destruct (B3 G). auto. }
    destruct l; try (rewrite app_nil_r in Q; destruct B as (B1&B2&B3); apply SAME; assumption).
    + destruct e; try (rewrite app_nil_r in Q; destruct B as (B1&B2&B3); apply SAME; assumption).
      destruct B as (MI&RD&B). rewrite <- app_assoc in Q. destruct (IH s1 t1 _ R1 Q) as (j&J&B1&B2&B3).
      destruct (chunk_spec (x_get E) (x_sig E) (skipn j ps) (rb_buf (s_buf E s1)) (rb_queue (s_buf E s1)) data rem tail)
        as (o&b'&q'&k&C&K&C1&C2&NP&CS).
      { apply Forall_skipn; exact OK. } { apply Forall_skipn; exact CALM. } { exact INC. } { rewrite <- app_assoc. exact B1. }
      destruct (s_buf E s1) as [bb qq] eqn:SB. cbn [rb_buf rb_queue] in *. rewrite C in B.
      assert (SB' : s_buf E s = mkBuf b' q') by (destruct o; [apply B|exact B|contradiction]).
      exists (j + k)%nat. rewrite SB', RA, RD, app_nil_r. cbn [rb_buf rb_queue]. rewrite skipn_length in K.
      split; [lia|]. split; [rewrite <- skipn_skipn; exact C1|]. split.
      { rewrite C2, app_assoc, B2, firstn_plus, flat_map_app. reflexivity. }
      intros G. rewrite <- skipn_skipn. destruct CS as [(->&_&AR)|(_&CB)].
      * split; [exact AR|]. destruct B as [_ B]. rewrite B. discriminate.
      * exfalso. rewrite count_bad_good in CB; [discriminate|].
        apply Forall_forall. intros x Hx. rewrite Forall_forall in G. apply G.
        assert (In x (skipn j ps)) by (rewrite <- (firstn_skipn k (skipn j ps)); apply in_app_iff; auto).
        rewrite <- (firstn_skipn j ps). apply in_app_iff. auto.
    + rewrite app_nil_r in Q. destruct B as (MD&B). destruct (IH s1 t1 rem R1 Q) as (j&J&B1&B2&B3). exists j. rewrite RA.
      destruct (s_buf E s1) as [bb qq] eqn:SB. cbn [next rb_queue rb_buf] in *. unfold next in B. cbn [rb_queue rb_buf] in B.
      destruct qq as [|x qq].
      * destruct B as (SB'&RD). rewrite SB', RD, !app_nil_r in *. cbn [rb_queue rb_buf] in *. rewrite ?app_nil_r in *.
        split; [exact J|]. split; [exact B1|]. split; [exact B2|]. intros G. destruct (B3 G). auto.
      * destruct B as (SB'&RD&NI). rewrite SB', RD. cbn [rb_buf rb_queue]. split; [exact J|]. split; [exact B1|]. split.
        { rewrite <- app_assoc. exact B2. }
        intros G. destruct (B3 G). split; [assumption|]. intros Z. contradiction.
Qed.

(** Whatever the chunks in which the transport delivers a stream of packets, the
    messages the consumer takes are those of the readable packets, in their
    order, each once. *)
Theorem C58_read_in_order (ps : list packet) (tail : bytes) : Forall packet_ok ps -> Forall (calm (x_get E) (x_sig E)) ps -> incomplete tail ->
  forall ls s t rem, runs E ls (start E) = Some (s, t) -> delivered ls ++ rem = stream ps ++ tail ->
  exists rest, flat_map (deliver (x_get E) (x_sig E)) ps = read t ++ rest.
Proof.
  intros OK CALM INC ls s t rem R Q. destruct (reading ps tail OK CALM INC ls s t rem R Q) as (j&_&_&B&_).
  exists (rb_queue (s_buf E s) ++ flat_map (deliver (x_get E) (x_sig E)) (skipn j ps)).
  rewrite app_assoc, B, <- flat_map_app, firstn_skipn. reflexivity.
Qed.

(** When the message task waits for the transport, and all packets delivered so far
    were readable, it has taken all of them.  Missing: behind an unreadable packet
    (see the refutation). *)
Theorem C58_all_read_partial (ps : list packet) (tail : bytes) : Forall packet_ok ps -> Forall (good (x_get E) (x_sig E)) ps -> incomplete tail ->
  forall ls s t, runs E ls (start E) = Some (s, t) -> delivered ls = stream ps ++ tail -> s_msg E s = MIdle E ->
  map (fun x => Some (snd x)) (read t) = map (fun p => match x_get E (p_id p) (p_body p) with Ok m => Some m | _ => None end) ps
  /\ map fst (read t) = map hdr ps.
Proof.
  intros OK GOOD INC ls s t R Q MI.
  assert (CALM : Forall (calm (x_get E) (x_sig E)) ps) by (eapply Forall_impl; [|exact GOOD]; intros p; apply good_calm).
  destruct (reading ps tail OK CALM INC ls s t [] R) as (j&J&B1&B2&B3); [rewrite app_nil_r; exact Q|].
  destruct (B3 GOOD) as [AR QE]. rewrite (QE MI), app_nil_r in B2. rewrite app_nil_r in B1.
  assert (Z : skipn j ps = []).
  { destruct (skipn j ps) as [|p l] eqn:Es; [reflexivity|]. exfalso.
    cbn [at_rest] in AR. rewrite B1 in AR. cbn [stream flat_map] in AR. rewrite !blen_app in AR. lia. }
  assert (W : firstn j ps = ps) by (rewrite <- (firstn_skipn j ps) at 2; rewrite Z, app_nil_r; reflexivity).
  rewrite W in B2. rewrite B2. clear -GOOD. induction GOOD as [|p ps G GOOD IH]; [auto|]. destruct IH as [I1 I2].
  destruct (deliver_good _ _ p G) as (m&D&M). cbn [flat_map map]. rewrite D. cbn [app map]. rewrite M, I1, I2. auto.
Qed.

(** * C59: a connection lives *)

Definition kept (l : label) : bool :=
  match l with
  | LDrop _ _ | LCancel _ | LTimeout _ _ | LClosed _ | LClient _ _ | LApi _ false | LCall _ (KShutdown _) => false
  | _ => true
  end.

(** events that only labels outside [kept] cause *)
Definition quiet (o : out) : Prop :=
  match o with
  | XDrop _ _ | XCancel _ | XRet _ _ (RErr _ XTimeout) | XCall _ _ (KShutdown _) | XSend _ _ _ _ false => False
  | _ => True
  end.
(** the end of a task for no reason, the end of the transport *)
Definition uncaused (o : out) : bool :=
  match o with XApiEnd _ None | XMsgEnd _ None | XCliEnd _ _ => true | _ => false end.
(** the end of a task, or of everything *)
Definition fatal (o : out) : bool :=
  match o with XApiEnd _ _ | XMsgEnd _ _ => true | XOver _ false (Some XPanic) => true | _ => false end.

Ltac outs J := cbn in J; repeat (destruct J as [<-|J]); try contradiction.

Ltac fin := (split; [let z := fresh "z" in let J := fresh "J" in intros z J; outs J; exact I|]); cbn;
  repeat match goal with H : s_api _ _ = _ |- _ => rewrite H in * | H : s_msg _ _ = _ |- _ => rewrite H in * end;
  (split; [reflexivity|]); try discriminate; intros _; auto; try discriminate.
Ltac cases_of F := repeat match type of F with
      | context [if ?b then _ else _] => destruct b eqn:?
      | context [match ?x with _ => _ end] => destruct x eqn:?
      end; try discriminate F; try (injection F as <- <-);
   repeat match goal with H : (_, _) = (_, _) |- _ => injection H as <- <- | H : match ?x with _ => _ end = (_, _) |- _ => destruct x eqn:? end.

Lemma fire_kept (l : label) (s s' : st) t : fire E l s = Some (s', t) -> kept l = true ->
  api_up E s = true -> msg_up E s = true -> s_cli E s = None -> s_cancel E s = false -> s_qshut E s = [] ->
  (forall o, In o t -> quiet o) /\ existsb uncaused t = false /\
  (existsb fatal t = false -> api_up E s' = true /\ msg_up E s' = true /\ s_cli E s' = None /\ s_cancel E s' = false).
Proof.
  intros F K UA UM CL CN QS. unfold api_up, msg_up in *. destruct (s_api E s) eqn:SA; [discriminate|]. clear UA.
  destruct l; cbn [fire kept] in F, K; try discriminate K; unfold api_up, msg_up in F; rewrite ?SA, ?CL, ?CN, ?QS in F.
  - destruct k; cbn in F, K; try discriminate; injection F as <- <-; fin.
  - unfold run_act, ask, request, fails, end_auth, return_, api_up, msg_up in F. rewrite SA in F. destruct (act E a (s_acts E s)) as [[k sg]|]; [|discriminate].
    destruct sg; destruct k; cases_of F; fin.
  - destruct ok; [|discriminate K]. destruct (s_q E s) as [|c q]; [discriminate|].
    destruct c; cbn -[next_seq] in F; unfold msg_up, end_api in F; cases_of F; fin.
  - discriminate.
  - destruct (s_msg E s) eqn:MS; try discriminate. destruct e; cbn [client_event] in F; unfold emit, crash in F; cases_of F; fin.
  - destruct (s_msg E s) eqn:MS; try discriminate. unfold next_msg, not_accepted, dispatch, emit, api_up in F. rewrite SA in F. cases_of F; fin.
  - unfold not_accepted, dispatch, emit in F. destruct (s_msg E s) as [| |h m [[|]|]|] eqn:MS; cases_of F; fin.
  - destruct (s_msg E s) eqn:MS; try discriminate. destruct (s_qauth E s) as [|x q]; [discriminate|]. destruct x as [[u|e]|a]; cbn in F; cases_of F; fin.
  - destruct (s_msg E s); discriminate.
  - discriminate.
  - destruct (s_shut E s); discriminate.
  - destruct (s_shut E s); discriminate.
  - discriminate.
  - discriminate.
  - cases_of F; fin.
  - cases_of F; fin.
  - cases_of F; fin.
Qed.

Lemma existsb_no {A} (f : A -> bool) l x : existsb f l = false -> f x = true -> ~ In x l.
Proof. intros X F J. assert (existsb f l = true) by (apply existsb_exists; eauto). congruence. Qed.

(** While no bytes come, a message task that waits for the transport takes nothing. *)
Definition no_bytes (l : label) : bool := match l with LEvent _ (InBinary _) => false | _ => true end.
Definition settled (s : st) : bool := match s_msg E s with MIdle _ | MEnd _ _ => true | _ => false end.
Lemma fire_settled (l : label) (s s' : st) t : fire E l s = Some (s', t) -> no_bytes l = true -> settled s = true ->
  settled s' = true /\ read t = [].
Proof.
  intros F N S. split.
  2: { pose proof (fire_buf _ _ _ _ F) as B. destruct l; try apply B.
       - destruct e; try apply B.
       - unfold settled in S. destruct B as [B _]. rewrite B in S. discriminate. }
  unfold settled in *. destruct l; cbn [fire] in F.
  1-3, 5, 7: cases_of F; cbn; auto.
  - unfold run_act, ask, request, fails, end_auth, return_ in F. destruct (act E a (s_acts E s)) as [[k sg]|]; [|discriminate].
    destruct sg; destruct k; cases_of F; cbn; assumption.
  - destruct (api_up E s); [|discriminate]. destruct (s_q E s) as [|c q]; [discriminate|].
    destruct c; cbn -[next_seq] in F; unfold end_api in F; cases_of F; cbn; repeat match goal with H : s_msg _ _ = _ |- _ => rewrite H in * end; auto; discriminate.
  - destruct (s_msg E s) eqn:MS; try discriminate. destruct e; [discriminate N|..]; cbn in F; injection F as <- <-; cbn; rewrite MS; reflexivity.
  - destruct (s_msg E s) eqn:MS; try discriminate. injection F as <- <-. reflexivity.
  - destruct (s_msg E s) eqn:MS; discriminate.
  - destruct (s_msg E s) eqn:MS; discriminate.
  - destruct (s_msg E s) eqn:MS; try discriminate. destruct (s_qauth E s) as [|x q]; [discriminate|].
    destruct x as [[u|e]|a]; cbn in F; cases_of F; cbn; rewrite ?MS; reflexivity.
  - destruct (s_msg E s) eqn:MS; try discriminate. cases_of F; reflexivity.
  - destruct (s_cli E s); [discriminate|]. destruct ok; cbn in F; injection F as <- <-; exact S.
  - destruct (s_cli E s); [discriminate|]. destruct (s_cancel E s); [|discriminate]. cbn in F. injection F as <- <-; exact S.
  - cases_of F; exact S.
  - cases_of F; exact S.
  - destruct (s_api E s); [|discriminate]. destruct (s_msg E s) eqn:MS; try discriminate. cbn in F. cases_of F; cbn; rewrite MS; reflexivity.
  - destruct (s_api E s); [|discriminate]. destruct (s_msg E s) eqn:MS; try discriminate. cbn zeta in F. cases_of F; cbn; rewrite MS; reflexivity.
  - cases_of F; exact S.
  - cases_of F; exact S.
  - cases_of F; exact S.
Qed.
Lemma runs_settled ls : forall s s' t, settled s = true -> runs E ls s = Some (s', t) -> forallb no_bytes ls = true -> read t = [].
Proof.
  induction ls as [|l ls IH]; intros s s' t S R N; cbn in R; [injection R as <- <-; reflexivity|].
  destruct (fire E l s) as [[s1 t1]|] eqn:F; [|discriminate]. destruct (runs E ls s1) as [[s2 t2]|] eqn:R1; [|discriminate]. injection R as <- <-.
  cbn in N. apply andb_true_iff in N. destruct N as [N1 N2]. destruct (fire_settled _ _ _ _ F N1 S) as [S1 T1].
  unfold read in *. rewrite flat_map_app, T1. eapply IH; eauto.
Qed.

(** Unless the application abandons a call, cancels or shuts down, or a request
    times out, or the transport fails or closes, or a handshake fails, or there is
    a second handshake, or the numbers run out, or bytes make the decoder panic,
    all tasks of the connection keep running. *)
Theorem C59_lives (ls : list label) s t : runs E ls (start E) = Some (s, t) ->
  forallb kept ls = true ->
  (forall a e, ~ In (XAuthEnd E a (inr e)) t) -> (forall a u, In (XAuthEnd E a (inl u)) t -> x_uuid E u <> None) ->
  (forall a b, In (XSpawn E a) t -> In (XSpawn E b) t -> a = b) -> (N.of_nat (numbers E t) <= 4294967284)%N ->
  ~ In (XOver E false (Some XPanic)) t ->
  api_up E s = true /\ msg_up E s = true /\ s_cli E s = None /\ s_cancel E s = false /\
  (forall r, ~ In (XApiEnd E r) t) /\ (forall r, ~ In (XMsgEnd E r) t) /\ (forall r, ~ In (XCliEnd E r) t).
Proof.
  intros R K AE AU SP NU NP.
  assert (L : (forall o, In o t -> quiet o) /\ existsb uncaused t = false /\ existsb fatal t = false /\
     api_up E s = true /\ msg_up E s = true /\ s_cli E s = None /\ s_cancel E s = false).
  { revert s t R K AE AU SP NU NP. induction ls as [|l ls IH] using rev_ind; intros s t R K AE AU SP NU NP.
    - injection R as <- <-. cbn. repeat split; auto. intros o [].
    - assert (XT : exec E t) by (exists (ls ++ [l]), s; exact R).
      destruct (runs_snoc _ _ _ _ _ R) as (s1&t1&t2&R1&F&->). rewrite forallb_app in K. apply andb_true_iff in K. destruct K as [K KL].
      cbn in KL. rewrite andb_true_r in KL.
      assert (In1 : forall o, In o t1 -> In o (t1 ++ t2)) by (intros; apply in_app_iff; auto).
      destruct (IH s1 t1 R1 K) as (Q1&U1&X1&UA&UM&CL&CN).
      { intros a e J. apply (AE a e). auto. } { intros a u J. apply (AU a u). auto. }
      { intros a b J1 J2. apply SP; auto. }
      { unfold numbers in *. rewrite filter_app, app_length in NU. lia. }
      { intros J. apply NP. auto. }
      pose proof (runs_inv E ls _ [] s1 t1 (start_inv E) R1) as I. cbn [app] in I.
      assert (QS : s_qshut E s1 = []).
      { destruct (s_qshut E s1) as [|a q] eqn:Q; [reflexivity|]. exfalso.
        apply (Q1 (XCall E a (KShutdown E))). apply (q_stop _ _ _ (i_asked _ _ _ I)). apply in_stop. right. left. rewrite Q. left. reflexivity. }
      destruct (fire_kept _ _ _ _ F KL UA UM CL CN QS) as (Q2&U2&X2).
      assert (QQ : forall o, In o (t1 ++ t2) -> quiet o) by (intros o J; apply in_app_iff in J; destruct J; auto).
      assert (UU : existsb uncaused (t1 ++ t2) = false) by (rewrite existsb_app, U1, U2; reflexivity).
      assert (NM : forall r, ~ In (XMsgEnd E r) (t1 ++ t2)).
      { intros r J. destruct (in_split _ _ J) as (v1&v2&Q). destruct (at_msgend E _ XT _ _ _ Q) as (_&_&W).
        assert (Inp : forall o, In o v1 -> In o (t1 ++ t2)) by (intros o Z; rewrite Q; apply in_app_iff; auto).
        destruct r as [e|]; [|refine (existsb_no _ _ _ UU _ J); reflexivity].
        assert (Z : (exists a u, In (XAuthEnd E a (inl u)) v1 /\ x_uuid E u = None) \/ (exists a e', In (XAuthEnd E a (inr e')) v1) \/ exists a, In (XDrop E a) v1).
        { destruct e; try (destruct W as [a W]; right; left; exists a; eexists; exact W).
          - destruct W as [[a W]|[a W]]; [right; right; eauto|right; left; eauto].
          - destruct W as [W|[a W]]; [left; exact W|right; left; eauto]. }
        destruct Z as [(a&u&J1&J2)|[(a&e'&J1)|(a&J1)]].
        - exact (AU a u (Inp _ J1) J2).
        - exact (AE a e' (Inp _ J1)).
        - exact (QQ _ (Inp _ J1)). }
      assert (NA : forall r, ~ In (XApiEnd E r) (t1 ++ t2)).
      { intros r J. destruct (in_split _ _ J) as (v1&v2&Q). destruct (at_apiend E _ XT _ _ _ Q) as (_&W).
        assert (Inp : forall o, In o v1 -> In o (t1 ++ t2)) by (intros o Z; rewrite Q; apply in_app_iff; auto).
        destruct r as [e|]; [|refine (existsb_no _ _ _ UU _ J); reflexivity].
        destruct e; try exact W.
        - destruct W as [(h&m&a&_&_&[W|W])|[[a W]|[[r' W]|[a W]]]].
          + exact (QQ _ (Inp _ W)).
          + exact (QQ _ (Inp _ W)).
          + exact (QQ _ (Inp _ W)).
          + exact (NM _ (Inp _ W)).
          + exact (QQ _ (Inp _ W)).
        - destruct W as (a&n&p&t0&W). apply (QQ (XSend E a n p false)). apply Inp. rewrite W. apply in_elt.
        - destruct (C57_numbering_partial E _ XT _ _ _ Q) as (a&_&[(b&AB&S1&S2)|(N1&_)]).
          + exact (AB (SP a b (Inp _ S1) (Inp _ S2))).
          + unfold numbers in *. rewrite Q, filter_app, app_length in NU. lia. }
      assert (X : existsb fatal (t1 ++ t2) = false).
      { destruct (existsb fatal (t1 ++ t2)) eqn:X; [|reflexivity]. exfalso. apply existsb_exists in X. destruct X as (o&J&X).
        destruct o; try discriminate X; [exact (NA _ J)|exact (NM _ J)|].
        destruct shutdowned; [discriminate|]. destruct r as [[]|]; try discriminate. exact (NP J). }
      split; [exact QQ|]. split; [exact UU|]. split; [exact X|]. apply X2. rewrite existsb_app in X. apply orb_false_iff in X. apply X. }
  destruct L as (Q&U&X&UA&UM&CL&CN). do 4 (split; [assumption|]). split; [|split]; intros r.
  - apply (existsb_no _ _ _ X). reflexivity.
  - apply (existsb_no _ _ _ X). reflexivity.
  - apply (existsb_no _ _ _ U). reflexivity.
Qed.
End Life.

(** * Concrete cases *)
Open Scope N_scope.

(** Three messages, the second of them cut in two, the third followed by the
    beginning of a fourth. *)
Definition three : list packet := [mkPacket 20 5 0 0 [x01]; mkPacket 30 5 0 0 []; mkPacket 20 5 0 0 [x02; x03]].
Definition fourth : bytes := firstn 20 (frame 20 0 [x04]).
Definition look : list (label demo) := [LNext demo; LApi demo true; LAnswer demo].
Definition cut : list (label demo) :=
  LEvent demo (InBinary (firstn 40 (stream three))) :: look ++ LNext demo ::
  LEvent demo (InBinary (skipn 40 (stream three) ++ fourth)) :: look ++ look ++ [LNext demo].

Lemma three_good : Forall packet_ok three /\ Forall (good (x_get demo) (x_sig demo)) three /\ incomplete fourth.
Proof.
  split; [repeat constructor|]. split; [|left; reflexivity].
  repeat constructor; cbn; eexists; reflexivity.
Qed.

Example C58_read_in_order_example : Forall packet_ok three /\ Forall (calm (x_get demo) (x_sig demo)) three /\ incomplete fourth /\
  runs demo (firstn 5 cut) (start demo) = Some (state (firstn 5 cut), trace (firstn 5 cut)) /\
  delivered demo (firstn 5 cut) ++ (skipn 40 (stream three) ++ fourth) = stream three ++ fourth /\
  read demo (trace (firstn 5 cut)) = [(stamp 20 0 1, (20, [x01]))].
Proof.
  destruct three_good as (A&B&C). split; [exact A|]. split; [eapply Forall_impl; [|exact B]; intros p; apply good_calm|].
  split; [exact C|]. split; [apply possible_runs; vm_compute; reflexivity|]. split; vm_compute; reflexivity.
Qed.
Example C58_all_read_example : Forall packet_ok three /\ Forall (good (x_get demo) (x_sig demo)) three /\ incomplete fourth /\
  runs demo cut (start demo) = Some (state cut, trace cut) /\ delivered demo cut = stream three ++ fourth /\ s_msg demo (state cut) = MIdle demo
  /\ read demo (trace cut) = [(stamp 20 0 1, (20, [x01])); (stamp 30 0 0, (30, [])); (stamp 20 0 2, (20, [x02; x03]))].
Proof.
  destruct three_good as (A&B&C). split; [exact A|]. split; [exact B|].
  split; [exact C|]. split; [apply possible_runs; vm_compute; reflexivity|]. repeat split; vm_compute; reflexivity.
Qed.

(** A broadcast arrives in one chunk with a packet of an unknown identifier.  The
    consumer reports the error and waits for the transport, while the broadcast
    stays in the buffer, whatever else happens, until more bytes come. *)
Definition behind : list packet := [mkPacket 20 5 0 0 [x01]; mkPacket 99 5 0 0 []].
Definition blocked : list (label demo) := [LEvent demo (InBinary (stream behind))].
Theorem C58_all_read_refuted : exists (ps : list packet) ls s t, Forall packet_ok ps /\ Forall (calm (x_get demo) (x_sig demo)) ps /\
  runs demo ls (start demo) = Some (s, t) /\ delivered demo ls = stream ps /\
  flat_map (deliver (x_get demo) (x_sig demo)) ps = [(stamp 20 0 1, (20, [x01]))] /\
  read demo t = [] /\
  (forall ls' s' t', runs demo ls' s = Some (s', t') -> forallb (no_bytes demo) ls' = true -> read demo t' = []) /\
  (exists ls' s' t', runs demo ls' s = Some (s', t') /\ read demo t' = [(stamp 20 0 1, (20, [x01]))]).
Proof.
  exists behind, blocked, (state blocked), (trace blocked).
  split; [repeat constructor|]. split; [repeat constructor; intros _; vm_compute; discriminate|].
  split; [apply possible_runs; vm_compute; reflexivity|]. do 3 (split; [vm_compute; reflexivity|]). split.
  - intros ls' s' t' R N. eapply (runs_settled demo); [|exact R|exact N]. vm_compute. reflexivity.
  - exists [LEvent demo (InBinary [x00]); LNext demo]. eexists _, _. split; [vm_compute; reflexivity|vm_compute; reflexivity].
Qed.

(** ** C59 *)
Definition healthy : list (label demo) :=
  shake 0 ++ send 1 (req 100) ++ send 2 (req 200) ++ receive 11 12 [x05] ++ receive 20 0 [x01] ++ receive 30 0 [] ++ receive 10 11 [x06]
  ++ [LAct demo 2 true; LAct demo 1 true; LEmit demo; LHandled demo; LEvent demo (InError); LEvent demo (InBinary [x01; x02])].
Example C59_lives_example : runs demo healthy (start demo) = Some (state healthy, trace healthy) /\
  forallb (kept demo) healthy = true /\
  (forall a e, ~ In (XAuthEnd demo a (inr e)) (trace healthy)) /\
  (forall a u, In (XAuthEnd demo a (inl u)) (trace healthy) -> x_uuid demo u <> None) /\
  (forall a b, In (XSpawn demo a) (trace healthy) -> In (XSpawn demo b) (trace healthy) -> a = b) /\
  (N.of_nat (numbers demo (trace healthy)) <= 4294967284)%N /\ ~ In (XOver demo false (Some XPanic)) (trace healthy)
  /\ In (XRet demo 1 (ROk demo 0 (10, [x06]))) (trace healthy).
Proof.
  split; [apply possible_runs; vm_compute; reflexivity|]. split; [vm_compute; reflexivity|].
  split. { intros a e. apply (none_such (fun o => match o with XAuthEnd _ _ (inr _) => true | _ => false end)); vm_compute; reflexivity. }
  split.
  { intros a u J. destruct (list_eq_dec byte_eq_dec u [x07]) as [->|N]; [vm_compute; discriminate|]. exfalso.
    assert (K : ~ In (XAuthEnd demo a (inl u)) (trace healthy)); [|exact (K J)].
    apply (none_such (fun o => match o with XAuthEnd _ _ (inl v) => if list_eq_dec byte_eq_dec v [x07] then false else true | _ => false end)).
    - vm_compute. reflexivity.
    - cbn. destruct (list_eq_dec byte_eq_dec u [x07]); [contradiction|reflexivity]. }
  split.
  { assert (Z : forall a, In (XSpawn demo a) (trace healthy) -> a = 0%nat).
    { intros a J. destruct (Nat.eq_dec a 0) as [->|N]; [reflexivity|]. exfalso.
      assert (K : ~ In (XSpawn demo a) (trace healthy)); [|exact (K J)].
      apply (none_such (fun o => match o with XSpawn _ b => negb (Nat.eqb b 0) | _ => false end)); [vm_compute; reflexivity|].
      apply Nat.eqb_neq in N. rewrite N. reflexivity. }
    intros a b A B. rewrite (Z a A), (Z b B). reflexivity. }
  split; [vm_compute; discriminate|].
  split; [apply (none_such (fun o => match o with XOver _ _ _ => true | _ => false end)); vm_compute; reflexivity|here].
Qed.

Print Assumptions C58_read_in_order.
Print Assumptions C58_all_read_partial.
Print Assumptions C58_all_read_refuted.
Print Assumptions C59_lives.
