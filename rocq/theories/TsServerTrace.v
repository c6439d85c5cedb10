(** What the steps of the TypeScript producer emit, and what traces tell about
    states. *)
From Coq Require Import List NArith Arith Bool Lia.
From Verif Require Import Bytes WireModel FrameModel TsModel TsReader TsServerModel TsServerProofs.
From Verif Require ProducerModel ProducerProofs.
Import ListNotations.
Open Scope N_scope.

Section Trace.
Variable E : qenv.
Local Notation M := (q_msg E).
Local Notation X := (q_out E).
Local Notation qst := (qst M X).
Local Notation qev := (qev M X).
Local Notation kons := (kons M).

(** ** One turn of the loop *)

Inductive turn (nt o : nat) (c : kons) (h : header) (m : M) : list qev -> Prop :=
| turn_self : q_self E m = true -> k_hash c = false ->
    turn nt o c h m [OKey o false; OSend ByLoop (k_uuid c) (h_seq h) (PSelf (k_uuid c))]
| turn_hash : q_hash E m = Some (q_proto E, q_work E) -> (q_self E m = false \/ k_hash c = true) ->
    turn nt o c h m [OSend ByLoop (k_uuid c) (h_seq h) (PHash true); OHash o]
| turn_wrong pw : q_hash E m = Some pw -> pw <> (q_proto E, q_work E) -> (q_self E m = false \/ k_hash c = true) ->
    turn nt o c h m [OSend ByLoop (k_uuid c) (h_seq h) (PHash false); OAsk (k_uuid c); OErr QHashes (Some o)]
| turn_early : q_hash E m = None -> q_self E m = false -> k_hash c = false ->
    turn nt o c h m [OAsk (k_uuid c); OErr QNoHash (Some o)]
| turn_nokey : q_hash E m = None -> k_hash c = true -> k_key c = false ->
    turn nt o c h m [OAsk (k_uuid c); OErr QNoKey (Some o)]
| turn_start kind : q_hash E m = None -> k_hash c = true -> k_key c = true -> q_for E m = Some kind ->
    turn nt o c h m [OStart nt o h m]
| turn_unknown : q_hash E m = None -> k_hash c = true -> k_key c = true -> q_for E m = None ->
    turn nt o c h m (receiving_err E (k_uuid c) (Some o)).

Lemma next_turn s s' es : fire E s LNext = Some (s', es) ->
  exists o c, p_loop s = Some o /\ p_obj s o = Some c /\
    ((rb_queue (k_buf c) = [] /\ s' = put_loop s None /\ es = []) \/
     exists h m q es', rb_queue (k_buf c) = (h, m) :: q /\ es = ORead o h m :: es' /\ turn (p_tasks s) o c h m es').
Proof.
  intro F. cbn [fire] in F. destruct (p_loop s) as [o|] eqn:L; [|discriminate F].
  destruct (p_obj s o) as [c|] eqn:O; [|discriminate F]. exists o, c. split; [reflexivity|]. split; [exact O|].
  destruct (rb_queue (k_buf c)) as [|[h m] q] eqn:Q; [left; injection F as <- <-; auto|]. right.
  destruct (handle E _ o _ h m) as (s2, es2) eqn:HD. injection F as <- <-. exists h, m, q, es2.
  split; [reflexivity|]. split; [reflexivity|]. unfold handle in HD. cbv zeta in HD.
  cbn [put_buf k_uuid k_hash k_key k_disc k_assigned] in HD.
  destruct (q_self E m && negb (k_hash c)) eqn:SK.
  { injection HD as _ <-. apply andb_true_iff in SK as (SK & HK). apply negb_true_iff in HK. constructor; auto. }
  assert (SK' : q_self E m = false \/ k_hash c = true).
  { apply andb_false_iff in SK as [SK|SK]; [auto|]. apply negb_false_iff in SK. auto. }
  destruct (q_hash E m) as [[p w]|] eqn:HM.
  { destruct (ProducerModel.bytes_eqb p (q_proto E) && ProducerModel.bytes_eqb w (q_work E)) eqn:V.
    - injection HD as _ <-. apply hashes_eq in V. apply turn_hash; [congruence|exact SK'].
    - injection HD as _ <-. eapply turn_wrong; [exact HM| |exact SK'].
      intro W. injection W as -> ->. apply andb_false_iff in V as [V|V];
        rewrite (proj2 (ProducerProofs.bytes_eqb_eq _ _) eq_refl) in V; discriminate V. }
  destruct (k_hash c) eqn:KH; cbn [negb] in HD.
  2:{ injection HD as _ <-. apply turn_early; auto. destruct SK' as [W|W]; [exact W|discriminate W]. }
  destruct (k_key c) eqn:KK; cbn [negb] in HD; [|injection HD as _ <-; apply turn_nokey; auto].
  cbn [assigned assign_is_undefined negb andb] in HD.
  destruct (q_for E m) as [kind|] eqn:FM; injection HD as _ <-.
  - eapply turn_start; eauto.
  - apply turn_unknown; auto.
Qed.

(** ** One step of a handler *)

Inductive tstep (t o : nat) (u n : N) (kind : bool * nat) : list qev -> Prop :=
| tstep_fail pre : (forall e, In e pre -> e = ODeferred t \/ exists v x, e = OBroad (Some t) v x) ->
    tstep t o u n kind (pre ++ OFail t :: receiving_err E u (Some o))
| tstep_answer x r ops : kind = (true, r) -> let bs := r_bs (build E (q_req E r) x ops) in
    (many (q_req E r) = true -> response_error E (q_req E r) (build E (q_req E r) x ops) = false) ->
    tstep t o u n kind [OResult t x bs; OSend (ByTask t) u n (PAnswer x)]
| tstep_confirm r : kind = (false, r) -> tstep t o u n kind [OSend (ByTask t) u n PConfirm]
| tstep_broad bs : tstep t o u n kind (broadcast_all E (Some t) bs None)
| tstep_last : tstep t o u n kind [ODeferred t].

Definition of_task (t : nat) (l : qlabel X) : Prop :=
  match l with LEnd t' _ | LSent t' _ _ | LLast t' _ => t' = t | _ => False end.

Lemma task_tstep s t l s' es : of_task t l -> fire E s l = Some (s', es) ->
  exists j c, p_loop s = None /\ p_task s t = Some j /\ p_obj s (j_obj j) = Some c /\
    j_stage j <> QDone /\ tstep t (j_obj j) (k_uuid c) (j_num j) (j_kind j) es.
Proof.
  intros O F.
  assert (FL : forall j c s2 es2, fail E s t j c = (s2, es2) -> tstep t (j_obj j) (k_uuid c) (j_num j) (j_kind j) es2).
  { intros j c s2 es2 Q. injection Q as _ <-. apply (tstep_fail _ _ _ _ _ []). intros e []. }
  destruct l; cbn [of_task] in O; try (elim O); subst; cbn [fire] in F;
    (destruct (p_loop s) eqn:L; [discriminate F|]);
    (destruct (p_task s t) as [j|] eqn:HT; [|discriminate F]);
    (destruct (j_stage j) as [|bs| |] eqn:ST; try discriminate F);
    (destruct (p_obj s (j_obj j)) as [c|] eqn:HO; [|discriminate F]);
    exists j, c; (split; [reflexivity|]); (split; [reflexivity|]); (split; [exact HO|]);
    (split; [congruence|]).
  - destruct r as [|x ops packs]; [apply (FL j c s' es); congruence|].
    destruct (j_kind j) as [[|] r] eqn:KD.
    + destruct (many (q_req E r) && _) eqn:RE; [rewrite <- KD; apply (FL j c s' es); congruence|].
      destruct packs; [|rewrite <- KD; apply (FL j c s' es); congruence]. injection F as _ <-. cbn [app].
      apply (tstep_answer _ _ _ _ _ x r ops eq_refl). intro MM. rewrite MM in RE. exact RE.
    + injection F as _ <-. cbn [app]. eapply tstep_confirm. reflexivity.
  - destruct ok; cbn [negb] in F; [|apply (FL j c s' es); congruence].
    destruct (broken E bs k) eqn:BK.
    + destruct (fail E s t j c) as (s2, fs) eqn:Q. injection F as _ <-. injection Q as _ <-.
      apply tstep_fail. intros e H. apply in_broadcast in H as (us & x & v & _ & _ & ->). eauto.
    + injection F as _ <-. rewrite broadcast_whole by exact BK. constructor.
  - destruct ok.
    + injection F as _ <-. constructor.
    + destruct (fail E s t j c) as (s2, fs) eqn:Q. injection F as _ <-. injection Q as _ <-.
      apply (tstep_fail _ _ _ _ _ [ODeferred t]). intros e [<-|[]]. auto.
Qed.

(** ** Any step *)

Lemma fire_emits s l s' es : fire E s l = Some (s', es) ->
  (l = LNext /\ exists o c, p_loop s = Some o /\ p_obj s o = Some c /\
     ((rb_queue (k_buf c) = [] /\ s' = put_loop s None /\ es = []) \/
      exists h m q es', rb_queue (k_buf c) = (h, m) :: q /\ es = ORead o h m :: es' /\ turn (p_tasks s) o c h m es')) \/
  (exists t j c, of_task t l /\ p_loop s = None /\ p_task s t = Some j /\ p_obj s (j_obj j) = Some c /\
     j_stage j <> QDone /\ tstep t (j_obj j) (k_uuid c) (j_num j) (j_kind j) es) \/
  (exists u, l = LConnected u /\ p_loop s = None /\
     ((p_map s u = None /\ es = [OConnected u (p_objs s)]) \/ (p_map s u <> None /\ es = [OErr QConnection None]))) \/
  (exists u, l = LDisconnected u /\
     ((exists o, p_map s u = Some o /\ es = [ODisconnected u o]) \/ (p_map s u = None /\ es = [OErr QDisconnection None]))) \/
  (exists u data fuel, l = LData u data fuel /\ p_loop s = None /\
     ((p_map s u = None /\ es = receiving_err E u None) \/
      exists o c, p_map s u = Some o /\ p_obj s o = Some c /\
        ((k_disc c = true /\ es = receiving_err E u (Some o)) \/
         exists r b, k_disc c = false /\ ts_chunk (q_get E) (q_sig E) fuel (k_buf c) data = Some (r, b) /\
           es = OChunk o data r :: match r with TReturned (S _) => receiving_err E u (Some o) | _ => [] end))) \/
  (exists o, l = LKey o /\ es = [OKey o true]) \/
  (exists o, l = LAssign o /\ es = [OAssign o]) \/
  (exists o, l = LDiscredit o /\ es = [ODiscredit o]) \/
  (exists e r k, l = LEvent e r k /\ forall x, In x es -> x = OEventErr e \/ exists u y, x = OBroad None u y).
Proof.
  intro F. destruct l.
  - right. right. left. exists u. cbn [fire] in F. split; [reflexivity|]. destruct (p_loop s); [discriminate F|]. split; [reflexivity|].
    destruct (p_map s u); injection F as _ <-; [right; split; [discriminate|reflexivity]|auto].
  - right. right. right. left. exists u. cbn [fire] in F. split; [reflexivity|].
    destruct (p_map s u) as [o|]; injection F as _ <-; eauto.
  - right. right. right. right. left. exists u, data, fuel. cbn [fire] in F. split; [reflexivity|].
    destruct (p_loop s); [discriminate F|]. split; [reflexivity|].
    destruct (p_map s u) as [o|] eqn:MU; [|injection F as _ <-; auto]. right.
    destruct (p_obj s o) as [c|] eqn:HO; [|discriminate F]. exists o, c. split; [reflexivity|]. split; [exact HO|].
    destruct (k_disc c); [injection F as _ <-; auto|]. right.
    destruct (ts_chunk (q_get E) (q_sig E) fuel (k_buf c) data) as [[r b]|] eqn:T; [|discriminate F].
    exists r, b. split; [reflexivity|]. split; [reflexivity|]. destruct r as [[|n]|]; injection F as _ <-; reflexivity.
  - left. split; [reflexivity|]. apply next_turn. exact F.
  - do 5 right. left. cbn [fire] in F. destruct (p_obj s o); [|discriminate F]. injection F as _ <-. eauto.
  - do 6 right. left. cbn [fire] in F. destruct (p_obj s o); [|discriminate F]. injection F as _ <-. eauto.
  - do 7 right. left. cbn [fire] in F. destruct (p_obj s o); [|discriminate F]. injection F as _ <-. eauto.
  - right. left. edestruct (task_tstep s t) as (j & c & H); [|exact F|]; [reflexivity|]. exists t, j, c. split; [reflexivity|exact H].
  - right. left. edestruct (task_tstep s t) as (j & c & H); [|exact F|]; [reflexivity|]. exists t, j, c. split; [reflexivity|exact H].
  - right. left. edestruct (task_tstep s t) as (j & c & H); [|exact F|]; [reflexivity|]. exists t, j, c. split; [reflexivity|exact H].
  - do 8 right. exists e, r, k. split; [reflexivity|]. cbn [fire] in F.
    destruct (p_loop s); [discriminate F|]. destruct r as [ops|].
    2:{ injection F as _ <-. intros x [<-|[]]. auto. }
    destruct (lacks E _ _); injection F as _ <-; intros x H.
    + destruct H as [<-|[]]. auto.
    + apply in_app_iff in H as [H|H].
      * apply in_broadcast in H as (us & y & v & _ & _ & ->). eauto.
      * destruct (broken E _ _); [destruct H as [<-|[]]; auto|elim H].
Qed.

(** What [receiving_err] may emit *)
Lemma in_receiving u o e : In e (receiving_err E u o) ->
  (e = OAsk u /\ o <> None /\ (q_cs E = ProducerModel.SDisc \/ q_cs E = ProducerModel.SEmitDisc)) \/ e = OErr QData o.
Proof.
  unfold receiving_err. intro H. destruct (q_cs E), o; cbn [app In] in H;
    repeat destruct H as [H|H]; try (elim H); subst e; auto; left; (split; [reflexivity|]); (split; [discriminate|auto]).
Qed.

(** ** The flags of an object *)
Record flags (tr : list qev) (o : nat) (c : kons) : Prop := mkFlags {
  f_hash : k_hash c = true <-> In (OHash o) tr;
  f_key : k_key c = true <-> exists b, In (OKey o b) tr;
  f_disc : k_disc c = true <-> In (ODiscredit o) tr;
  f_assigned : k_assigned c = true <-> In (OAssign o) tr
}.

(** Events that set no flag of [o]. *)
Definition silent (o : nat) (e : qev) : Prop :=
  match e with OHash v | OKey v _ | ODiscredit v | OAssign v => v <> o | _ => True end.

Lemma flags_silent tr es o c : (forall e, In e es -> silent o e) -> flags tr o c -> flags (tr ++ es) o c.
Proof.
  intros S [f1 f2 f3 f4].
  assert (K : forall e, ~ silent o e -> (In e (tr ++ es) <-> In e tr)).
  { intros e N. rewrite in_app_iff. split; [intros [H|H]; [exact H|elim N; apply S; exact H]|auto]. }
  split.
  - rewrite f1, K by (cbn [silent]; tauto). reflexivity.
  - rewrite f2. split; intros (b & H); exists b; [rewrite K by (cbn [silent]; tauto); exact H|].
    rewrite K in H by (cbn [silent]; tauto). exact H.
  - rewrite f3, K by (cbn [silent]; tauto). reflexivity.
  - rewrite f4, K by (cbn [silent]; tauto). reflexivity.
Qed.

Lemma flags_buf tr o c b : flags tr o c -> flags tr o (put_buf c b).
Proof. intros [f1 f2 f3 f4]. split; assumption. Qed.

Definition flagged (s : qst) (tr : list qev) : Prop :=
  forall o, match p_obj s o with
            | Some c => flags tr o c
            | None => forall e, In e tr -> silent o e
            end.

Lemma receiving_silent u v o e : In e (receiving_err E u v) -> silent o e.
Proof. intro H. apply in_receiving in H as [(-> & _)| ->]; exact I. Qed.

Lemma flagged_same s s' tr es : (forall o, p_obj s' o = p_obj s o) ->
  (forall e, In e es -> forall o, silent o e) -> flagged s tr -> flagged s' (tr ++ es).
Proof.
  intros P S H o. rewrite P. specialize (H o). destruct (p_obj s o).
  - apply flags_silent; [intros e He; apply S; exact He|exact H].
  - intros e He. apply in_app_iff in He as [He|He]; [apply H; exact He|apply S; exact He].
Qed.

(** Object [o] becomes [c']. *)
Lemma flagged_put s s' tr o c c' es : p_obj s o = Some c ->
  (forall v, p_obj s' v = updn (p_obj s) o (Some c') v) ->
  (forall e, In e es -> forall v, v <> o -> silent v e) ->
  (flags tr o c -> flags (tr ++ es) o c') ->
  flagged s tr -> flagged s' (tr ++ es).
Proof.
  intros HO P S K H v. rewrite P. specialize (H v). destruct (Nat.eq_dec v o) as [->|N].
  - rewrite updn_same. rewrite HO in H. apply K. exact H.
  - rewrite updn_other by exact N. destruct (p_obj s v).
    + apply flags_silent; [intros e He; apply S; assumption|exact H].
    + intros e He. apply in_app_iff in He as [He|He]; [apply H; exact He|apply S; assumption].
Qed.

Ltac all_silent := solve [intros ? ?W ?v; cbn [In] in W; repeat destruct W as [W|W]; try (elim W); subst; exact I].

Lemma qrun_flags ls s tr : qrun E ls s tr -> flagged s tr.
Proof.
  induction 1 as [|ls s tr l s' es R IH F].
  { intros o e []. }
  pose proof (qrun_inv E _ _ _ R) as I.
  destruct l.
  - cbn [fire] in F. destruct (p_loop s); [discriminate F|]. destruct (p_map s u); injection F as <- <-.
    { apply (flagged_same s); auto. all_silent. }
    intros o. cbn [p_obj]. destruct (Nat.eq_dec o (p_objs s)) as [->|N].
    + rewrite updn_same. pose proof (IH (p_objs s)) as K. rewrite (i_fresh _ _ _ I) in K by apply le_n.
      assert (K' : forall e, In e (tr ++ [@OConnected M X u (p_objs s)]) -> silent (p_objs s) e).
      { intros e He. apply in_app_iff in He as [He|[<-|[]]]; [apply K; exact He|exact Logic.I]. }
      split; cbn [k_hash k_key k_disc k_assigned]; (split; [discriminate|]).
      * intro W. elim (K' _ W eq_refl).
      * intros (b & W). elim (K' _ W eq_refl).
      * intro W. elim (K' _ W eq_refl).
      * intro W. elim (K' _ W eq_refl).
    + rewrite updn_other by exact N. pose proof (IH o) as K. destruct (p_obj s o).
      * apply flags_silent; [|exact K]. intros e [<-|[]]. exact Logic.I.
      * intros e He. apply in_app_iff in He as [He|[<-|[]]]; [apply K; exact He|exact Logic.I].
  - cbn [fire] in F. destruct (p_map s u); injection F as <- <-; apply (flagged_same s); auto; all_silent.
  - cbn [fire] in F. destruct (p_loop s); [discriminate F|].
    destruct (p_map s u) as [o|]; [|injection F as <- <-; apply (flagged_same s); auto; intros e He v; eapply receiving_silent; exact He].
    destruct (p_obj s o) as [c|] eqn:HO; [|discriminate F].
    destruct (k_disc c); [injection F as <- <-; apply (flagged_same s); auto; intros e He v; eapply receiving_silent; exact He|].
    destruct (ts_chunk (q_get E) (q_sig E) fuel (k_buf c) data) as [[r b]|]; [|discriminate F].
    destruct r as [[|n]|]; injection F as <- <-; apply (flagged_put s _ tr o c (put_buf c b)); auto.
    + intros e [<-|[]] v _; exact Logic.I.
    + intro K. apply flags_buf. apply flags_silent; [|exact K]. intros e [<-|[]]; exact Logic.I.
    + intros e [<-|He] v _; [exact Logic.I|eapply receiving_silent; exact He].
    + intro K. apply flags_buf. apply flags_silent; [|exact K]. intros e [<-|He]; [exact Logic.I|eapply receiving_silent; exact He].
    + intros e [<-|[]] v _; exact Logic.I.
    + intro K. apply flags_buf. apply flags_silent; [|exact K]. intros e [<-|[]]; exact Logic.I.
  - cbn [fire] in F. destruct (p_loop s) as [o|]; [|discriminate F].
    destruct (p_obj s o) as [c|] eqn:HO; [|discriminate F].
    destruct (rb_queue (k_buf c)) as [|[h m] q] eqn:Q.
    { injection F as <- <-. rewrite app_nil_r. exact IH. }
    destruct (handle E _ o _ h m) as (s2, es2) eqn:HD. injection F as <- <-.
    set (c1 := put_buf c (mkBuf (rb_buf (k_buf c)) q)) in HD.
    assert (QUIET : forall s3 es3, (forall v, p_obj s3 v = updn (p_obj s) o (Some c1) v) ->
       (forall e, In e es3 -> forall v, silent v e) -> flagged s3 (tr ++ ORead o h m :: es3)).
    { intros s3 es3 P S. apply (flagged_put s _ tr o c c1); auto.
      - intros e [<-|He] v _; [exact Logic.I|apply S; exact He].
      - intro K. apply flags_buf. apply flags_silent; [|exact K]. intros e [<-|He]; [exact Logic.I|apply S; exact He]. }
    unfold handle in HD. cbv zeta in HD.
    destruct (q_self E m && negb (k_hash c1)).
    { injection HD as <- <-. apply (flagged_put s _ tr o c (put_key c1)); auto.
      - intros v. cbn [put_obj p_obj]. unfold updn. destruct (Nat.eqb v o); reflexivity.
      - intros e [<-|[<-|[<-|[]]]] v N; cbn [silent]; auto.
      - intros [f1 f2 f3 f4]. split; cbn [put_key k_hash k_key k_disc k_assigned c1 put_buf]; rewrite ?f1, ?f3, ?f4, ?in_app_iff.
        + split; [auto|]. intros [W|[W|[W|[W|[]]]]]; [exact W|discriminate W..].
        + split; [intros _; exists false; apply in_app_iff; right; right; left; reflexivity|reflexivity].
        + split; [auto|]. intros [W|[W|[W|[W|[]]]]]; [exact W|discriminate W..].
        + split; [auto|]. intros [W|[W|[W|[W|[]]]]]; [exact W|discriminate W..]. }
    destruct (q_hash E m) as [[p w]|].
    { destruct (ProducerModel.bytes_eqb p (q_proto E) && ProducerModel.bytes_eqb w (q_work E)); injection HD as <- <-.
      - apply (flagged_put s _ tr o c (put_hash c1)); auto.
        + intros v. cbn [put_obj p_obj]. unfold updn. destruct (Nat.eqb v o); reflexivity.
        + intros e [<-|[<-|[<-|[]]]] v N; cbn [silent]; auto.
        + intros [f1 f2 f3 f4]. split; cbn [put_hash k_hash k_key k_disc k_assigned c1 put_buf]; rewrite ?f2, ?f3, ?f4.
          * rewrite in_app_iff. split; [intros _; right; right; right; left; reflexivity|reflexivity].
          * split; intros (b & W); exists b; [apply in_app_iff; auto|].
            apply in_app_iff in W as [W|[W|[W|[W|[]]]]]; [exact W|discriminate W..].
          * rewrite in_app_iff. split; [auto|]. intros [W|[W|[W|[W|[]]]]]; [exact W|discriminate W..].
          * rewrite in_app_iff. split; [auto|]. intros [W|[W|[W|[W|[]]]]]; [exact W|discriminate W..].
      - apply QUIET; [reflexivity|all_silent]. }
    destruct (negb (k_hash c1)); [injection HD as <- <-; apply QUIET; [reflexivity|all_silent]|].
    destruct (negb (k_key c1)); [injection HD as <- <-; apply QUIET; [reflexivity|all_silent]|].
    destruct (negb (assigned E c1) && _); [injection HD as <- <-; apply QUIET; [reflexivity|]; destruct (q_is E); all_silent|].
    destruct (q_for E m); injection HD as <- <-; apply QUIET; try reflexivity; [all_silent|].
    intros e He v. eapply receiving_silent; exact He.
  - cbn [fire] in F. destruct (p_obj s o) as [c|] eqn:HO; [|discriminate F]. injection F as <- <-.
    apply (flagged_put s _ tr o c (put_key c)); auto.
    + intros e [<-|[]] v N; cbn [silent]; auto.
    + intros [f1 f2 f3 f4]. split; cbn [put_key k_hash k_key k_disc k_assigned]; rewrite ?f1, ?f3, ?f4, ?in_app_iff.
      * split; [auto|]. intros [W|[W|[]]]; [exact W|discriminate W].
      * split; [intros _; exists true; apply in_app_iff; right; left; reflexivity|reflexivity].
      * split; [auto|]. intros [W|[W|[]]]; [exact W|discriminate W].
      * split; [auto|]. intros [W|[W|[]]]; [exact W|discriminate W].
  - cbn [fire] in F. destruct (p_obj s o) as [c|] eqn:HO; [|discriminate F]. injection F as <- <-.
    apply (flagged_put s _ tr o c (put_assigned c)); auto.
    + intros e [<-|[]] v N; cbn [silent]; auto.
    + intros [f1 f2 f3 f4]. split; cbn [put_assigned k_hash k_key k_disc k_assigned]; rewrite ?f1, ?f2, ?f3.
      * rewrite in_app_iff. split; [auto|]. intros [W|[W|[]]]; [exact W|discriminate W].
      * split; intros (b & W); exists b; [apply in_app_iff; auto|].
        apply in_app_iff in W as [W|[W|[]]]; [exact W|discriminate W].
      * rewrite in_app_iff. split; [auto|]. intros [W|[W|[]]]; [exact W|discriminate W].
      * rewrite in_app_iff. split; [intros _; right; left; reflexivity|reflexivity].
  - cbn [fire] in F. destruct (p_obj s o) as [c|] eqn:HO; [|discriminate F]. injection F as <- <-.
    apply (flagged_put s _ tr o c (put_disc c)); auto.
    + intros e [<-|[]] v N; cbn [silent]; auto.
    + intros [f1 f2 f3 f4]. split; cbn [put_disc k_hash k_key k_disc k_assigned]; rewrite ?f1, ?f2, ?f4.
      * rewrite in_app_iff. split; [auto|]. intros [W|[W|[]]]; [exact W|discriminate W].
      * split; intros (b & W); exists b; [apply in_app_iff; auto|].
        apply in_app_iff in W as [W|[W|[]]]; [exact W|discriminate W].
      * rewrite in_app_iff. split; [intros _; right; left; reflexivity|reflexivity].
      * rewrite in_app_iff. split; [auto|]. intros [W|[W|[]]]; [exact W|discriminate W].
  - assert (P : p_obj s' = p_obj s).
    { cbn [fire] in F. destruct (p_loop s); [discriminate F|]. destruct (p_task s t) as [j|]; [|discriminate F].
      destruct (j_stage j); try discriminate F. destruct (p_obj s (j_obj j)); [|discriminate F].
      destruct r; [injection F as <- _; reflexivity|]. destruct (j_kind j) as [[|] r].
      - destruct (many (q_req E r) && _); [injection F as <- _; reflexivity|].
        destruct packs; injection F as <- _; reflexivity.
      - injection F as <- _; reflexivity. }
    edestruct (task_tstep s t) as (j & c & _ & _ & _ & _ & T); [|exact F|]; [reflexivity|].
    apply (flagged_same s); [rewrite P; auto|clear -T|exact IH].
    intros e He v. destruct T as [pre HP|x r' ops KD bs RE|r' KD|bs|].
    + apply in_app_iff in He as [He|[<-|He]]; [|exact I|eapply receiving_silent; exact He].
      destruct (HP e He) as [->|(w & y & ->)]; exact I.
    + destruct He as [<-|[<-|[]]]; exact I.
    + destruct He as [<-|[]]; exact I.
    + apply in_broadcast in He as (us & y & w & _ & _ & ->). exact I.
    + destruct He as [<-|[]]; exact I.
  - assert (P : p_obj s' = p_obj s).
    { cbn [fire] in F. destruct (p_loop s); [discriminate F|]. destruct (p_task s t) as [j|]; [|discriminate F].
      destruct (j_stage j); try discriminate F. destruct (p_obj s (j_obj j)); [|discriminate F].
      destruct (negb ok); [injection F as <- _; reflexivity|].
      destruct (broken E bs k); injection F as <- _; reflexivity. }
    edestruct (task_tstep s t) as (j & c & _ & _ & _ & _ & T); [|exact F|]; [reflexivity|].
    apply (flagged_same s); [rewrite P; auto|clear -T|exact IH].
    intros e He v. destruct T as [pre HP|x r' ops KD bs RE|r' KD|bs|].
    + apply in_app_iff in He as [He|[<-|He]]; [|exact I|eapply receiving_silent; exact He].
      destruct (HP e He) as [->|(w & y & ->)]; exact I.
    + destruct He as [<-|[<-|[]]]; exact I.
    + destruct He as [<-|[]]; exact I.
    + apply in_broadcast in He as (us & y & w & _ & _ & ->). exact I.
    + destruct He as [<-|[]]; exact I.
  - assert (P : p_obj s' = p_obj s).
    { cbn [fire] in F. destruct (p_loop s); [discriminate F|]. destruct (p_task s t) as [j|]; [|discriminate F].
      destruct (j_stage j); try discriminate F. destruct (p_obj s (j_obj j)); [|discriminate F].
      destruct ok; injection F as <- _; reflexivity. }
    edestruct (task_tstep s t) as (j & c & _ & _ & _ & _ & T); [|exact F|]; [reflexivity|].
    apply (flagged_same s); [rewrite P; auto|clear -T|exact IH].
    intros e He v. destruct T as [pre HP|x r' ops KD bs RE|r' KD|bs|].
    + apply in_app_iff in He as [He|[<-|He]]; [|exact I|eapply receiving_silent; exact He].
      destruct (HP e He) as [->|(w & y & ->)]; exact I.
    + destruct He as [<-|[<-|[]]]; exact I.
    + destruct He as [<-|[]]; exact I.
    + apply in_broadcast in He as (us & y & w & _ & _ & ->). exact I.
    + destruct He as [<-|[]]; exact I.
  - assert (P : s' = s).
    { cbn [fire] in F. destruct (p_loop s); [discriminate F|]. destruct r; [|injection F as <- _; reflexivity].
      destruct (lacks E _ _); injection F as <- _; reflexivity. }
    subst s'. apply (flagged_same s); auto.
    destruct (fire_emits _ _ _ _ F) as [(C & _)|[(t & j & c & C & _)|[(v & C & _)|[(v & C & _)|[(v & d & g & C & _)|[(v & C & _)|[(v & C & _)|[(v & C & _)|(e' & r' & k' & C & H)]]]]]]]];
      try discriminate C; try (elim C).
    intros x Hx v. destruct (H x Hx) as [->|(w & y & ->)]; exact Logic.I.
Qed.

(** ** The streams *)

(** the pieces of data of an object, what the reader said to them, the messages
    taken from its queue *)
Definition chunks (o : nat) (tr : list qev) : list bytes :=
  flat_map (fun e => match e with OChunk v d _ => if Nat.eqb v o then [d] else [] | _ => [] end) tr.
Definition outcomes (o : nat) (tr : list qev) : list ts_outcome :=
  flat_map (fun e => match e with OChunk v _ r => if Nat.eqb v o then [r] else [] | _ => [] end) tr.
Definition reads (o : nat) (tr : list qev) : list (header * M) :=
  flat_map (fun e => match e with ORead v h m => if Nat.eqb v o then [(h, m)] else [] | _ => [] end) tr.

Lemma ts_step_queue buf q k :
  ts_step (q_get E) (q_sig E) buf (k ++ q) =
  match ts_step (q_get E) (q_sig E) buf q with
  | RNext e b q' => RNext e b (k ++ q')
  | x => x
  end.
Proof.
  unfold ts_step. destruct (negb (has_header buf)); [reflexivity|].
  destruct (blen buf <? h_len (get_header buf) + header_len); [reflexivity|].
  destruct (negb (h_sig (get_header buf) =? q_sig E)); [reflexivity|].
  destruct (q_get E _ _); rewrite ?app_assoc; reflexivity.
Qed.

Lemma ts_loop_queue k fuel : forall errs buf q o b q',
  ts_loop (q_get E) (q_sig E) fuel errs buf q = Some (o, mkBuf b q') ->
  ts_loop (q_get E) (q_sig E) fuel errs buf (k ++ q) = Some (o, mkBuf b (k ++ q')).
Proof.
  induction fuel as [|f IH]; intros errs buf q o b q' H; cbn [ts_loop] in *; [discriminate H|].
  rewrite ts_step_queue. destruct (ts_step (q_get E) (q_sig E) buf q).
  - injection H as <- <- <-. reflexivity.
  - apply IH, H.
  - injection H as <- <- <-. reflexivity.
  - apply IH, H.
Qed.

Lemma ts_feeds_snoc st cs os st1 : ts_feeds (q_get E) (q_sig E) st cs os st1 -> forall c o st2,
  ts_returns (q_get E) (q_sig E) st1 c o st2 ->
  ts_feeds (q_get E) (q_sig E) st (cs ++ [c]) (os ++ [o]) st2.
Proof.
  induction 1; intros; cbn [app].
  - econstructor; [eassumption|constructor].
  - econstructor; eauto.
Qed.


(** Why messages of [o] are left in its queue. *)
Definition stuck (o : nat) (tr : list qev) : Prop :=
  (exists os x, outcomes o tr = os ++ [x] /\ x <> TReturned 0) \/
  (exists p h m q, tr = p ++ ORead o h m :: q /\ q_hash E m = None /\ q_for E m = None /\ In (OHash o) p).

Definition fed (s : qst) (tr : list qev) (o : nat) : Prop :=
  match p_obj s o with
  | None => chunks o tr = [] /\ outcomes o tr = [] /\ reads o tr = []
  | Some c =>
    ts_feeds (q_get E) (q_sig E) (mkBuf [] []) (chunks o tr) (outcomes o tr)
      (mkBuf (rb_buf (k_buf c)) (reads o tr ++ rb_queue (k_buf c))) /\
    (p_loop s <> Some o -> rb_queue (k_buf c) <> [] -> stuck o tr)
  end.

Definition noio (o : nat) (e : qev) : Prop :=
  match e with OChunk v _ _ | ORead v _ _ => v <> o | _ => True end.

Lemma noio_nil o es : (forall e, In e es -> noio o e) -> chunks o es = [] /\ outcomes o es = [] /\ reads o es = [].
Proof.
  induction es as [|e es IH]; intro H; [auto|].
  destruct IH as (I1 & I2 & I3); [intros x Hx; apply H; right; exact Hx|].
  pose proof (H e (or_introl eq_refl)) as He.
  unfold chunks, outcomes, reads in *. cbn [flat_map].
  destruct e; cbn [noio] in He; try (rewrite I1, I2, I3; auto; fail);
    apply Nat.eqb_neq in He; rewrite He, I1, I2, I3; auto.
Qed.

Lemma chunks_app o a b : chunks o (a ++ b) = chunks o a ++ chunks o b. Proof. apply flat_map_app. Qed.
Lemma outcomes_app o a b : outcomes o (a ++ b) = outcomes o a ++ outcomes o b. Proof. apply flat_map_app. Qed.
Lemma reads_app o a b : reads o (a ++ b) = reads o a ++ reads o b. Proof. apply flat_map_app. Qed.

Lemma stuck_more o tr es : (forall e, In e es -> noio o e) -> stuck o tr -> stuck o (tr ++ es).
Proof.
  intros N [(os & x & H1 & H2)|(p & h & m & q & -> & H)].
  - left. exists os, x. rewrite outcomes_app. destruct (noio_nil o es N) as (_ & -> & _). rewrite app_nil_r. auto.
  - right. exists p, h, m, (q ++ es). rewrite <- app_assoc. auto.
Qed.

(** A step that does nothing to the buffer of [o]. *)
Lemma fed_same s s' tr es o :
  option_map k_buf (p_obj s' o) = option_map k_buf (p_obj s o) ->
  (forall e, In e es -> noio o e) -> (p_loop s' <> Some o -> p_loop s <> Some o) ->
  fed s tr o -> fed s' (tr ++ es) o.
Proof.
  intros P N L H. unfold fed in *. destruct (noio_nil o es N) as (N1 & N2 & N3).
  rewrite chunks_app, outcomes_app, reads_app, N1, N2, N3, !app_nil_r.
  destruct (p_obj s' o) as [c'|], (p_obj s o) as [c|]; cbn [option_map] in P; try discriminate P; [|exact H].
  injection P as P. rewrite P. destruct H as (H1 & H2). split; [exact H1|].
  intros L' Q. apply stuck_more; [exact N|]. apply H2; auto.
Qed.

Lemma receiving_noio u v o e : In e (receiving_err E u v) -> noio o e.
Proof. intro H. apply in_receiving in H as [(-> & _)| ->]; exact I. Qed.

Lemma turn_noio nt o c h m es v : turn nt o c h m es -> forall e, In e es -> noio v e.
Proof.
  intros T e He. destruct T; try (eapply receiving_noio; exact He);
    cbn [In] in He; repeat destruct He as [He|He]; try (elim He); subst; exact I.
Qed.

Lemma tstep_noio t o u n kd es v : tstep t o u n kd es -> forall e, In e es -> noio v e.
Proof.
  intros T e He. destruct T as [pre HP|x r' ops KD bs RE|r' KD|bs|].
  - apply in_app_iff in He as [He|[<-|He]]; [|exact I|eapply receiving_noio; exact He].
    destruct (HP e He) as [->|(w & y & ->)]; exact I.
  - destruct He as [<-|[<-|[]]]; exact I.
  - destruct He as [<-|[]]; exact I.
  - apply in_broadcast in He as (us & y & w & _ & _ & ->). exact I.
  - destruct He as [<-|[]]; exact I.
Qed.

(** The steps of handlers and of events leave the objects and the loop alone. *)
Lemma task_state s t l s' es : of_task t l -> fire E s l = Some (s', es) ->
  p_map s' = p_map s /\ p_obj s' = p_obj s /\ p_loop s' = p_loop s /\ p_objs s' = p_objs s /\ p_tasks s' = p_tasks s.
Proof.
  intros O F. destruct l; cbn [of_task] in O; try (elim O); subst; cbn [fire] in F;
    (destruct (p_loop s) eqn:L; [discriminate F|]);
    (destruct (p_task s t) as [j|] eqn:HT; [|discriminate F]);
    (destruct (j_stage j) as [|bs| |] eqn:ST; try discriminate F);
    (destruct (p_obj s (j_obj j)) as [c|] eqn:HO; [|discriminate F]).
  - destruct r as [|x ops packs]; [injection F as <- _; cbn [put_task p_loop]; rewrite L; auto|].
    destruct (j_kind j) as [[|] r].
    + destruct (many (q_req E r) && _); [injection F as <- _; cbn [put_task p_loop]; rewrite L; auto|].
      destruct packs; injection F as <- _; cbn [put_task p_loop]; rewrite L; auto.
    + injection F as <- _; cbn [put_task p_loop]; rewrite L; auto.
  - destruct (negb ok); [injection F as <- _; cbn [put_task p_loop]; rewrite L; auto|].
    destruct (broken E bs k); injection F as <- _; cbn [put_task p_loop]; rewrite L; auto.
  - destruct ok; injection F as <- _; cbn [put_task p_loop]; rewrite L; auto.
Qed.

Lemma event_state s e r k s' es : fire E s (LEvent e r k) = Some (s', es) -> s' = s.
Proof.
  cbn [fire]. intro F. destruct (p_loop s); [discriminate F|]. destruct r; [|injection F as <- _; reflexivity].
  destruct (lacks E _ _); injection F as <- _; reflexivity.
Qed.

(** What one turn of the loop does to the state. *)
Lemma next_state s s' es o c h m q : fire E s LNext = Some (s', es) ->
  p_loop s = Some o -> p_obj s o = Some c -> rb_queue (k_buf c) = (h, m) :: q ->
  (exists c', (forall v, p_obj s' v = updn (p_obj s) o (Some c') v) /\ k_uuid c' = k_uuid c /\
    k_buf c' = mkBuf (rb_buf (k_buf c)) q) /\
  p_map s' = p_map s /\ p_objs s' = p_objs s /\
  (p_loop s' = Some o \/
   (p_loop s' = None /\ q_hash E m = None /\ q_for E m = None /\ k_hash c = true)).
Proof.
  intros F L O Q. cbn [fire] in F. rewrite L, O, Q in F.
  destruct (handle E _ o _ h m) as (s2, es2) eqn:HD. injection F as <- _.
  set (c1 := put_buf c (mkBuf (rb_buf (k_buf c)) q)) in HD.
  assert (P1 : forall c2 v, updn (updn (p_obj s) o (Some c1)) o (Some c2) v = updn (p_obj s) o (Some c2) v).
  { intros c2 v. unfold updn. destruct (Nat.eqb v o); reflexivity. }
  unfold handle in HD. cbv zeta in HD.
  destruct (q_self E m && negb (k_hash c1)).
  { injection HD as <- _. split; [exists (put_key c1); split; [apply P1|]; auto|auto]. }
  destruct (q_hash E m) as [[p w]|].
  { destruct (ProducerModel.bytes_eqb p (q_proto E) && ProducerModel.bytes_eqb w (q_work E)); injection HD as <- _.
    - split; [exists (put_hash c1); split; [apply P1|]; auto|auto].
    - split; [exists c1; auto|auto]. }
  destruct (k_hash c1) eqn:KH; cbn [negb] in HD; [|injection HD as <- _; split; [exists c1; auto|auto]].
  destruct (negb (k_key c1)); [injection HD as <- _; split; [exists c1; auto|auto]|].
  cbn [assigned assign_is_undefined negb andb] in HD.
  destruct (q_for E m) eqn:FM; injection HD as <- _; (split; [exists c1; auto|]).
  - cbn [put_obj p_map p_objs p_loop]. auto.
  - cbn [put_loop put_obj p_map p_objs p_loop]. split; [reflexivity|]. split; [reflexivity|]. right. auto.
Qed.

Lemma qrun_fed ls s tr : qrun E ls s tr -> forall o, fed s tr o.
Proof.
  induction 1 as [|ls s tr l s' es R IH F]; intro o; [repeat split|].
  pose proof (qrun_inv E _ _ _ R) as I.
  destruct (fire_emits _ _ _ _ F) as [(-> & o1 & c1 & L1 & O1 & C)|[(t & j & c & OT & L & _ & _ & _ & T)|[(u & -> & L & C)|
    [(u & -> & C)|[(u & data & fuel & -> & L & C)|[(v & -> & ->)|[(v & -> & ->)|[(v & -> & ->)|(e & r & k & -> & H)]]]]]]]].
  - destruct C as [(Q & -> & ->)|(h & m & q & es' & Q & -> & T)].
    + specialize (IH o). unfold fed in *. cbn [put_loop p_obj p_loop]. rewrite app_nil_r.
      destruct (p_obj s o) as [c|] eqn:O; [|exact IH]. destruct IH as (I1 & I2). split; [exact I1|].
      intros _ Q'. destruct (Nat.eq_dec o o1) as [->|N]; [congruence|]. apply I2; [|exact Q'].
      rewrite L1. congruence.
    + destruct (next_state _ _ _ _ _ _ _ _ F L1 O1 Q) as ((c' & P & _ & B) & _ & _ & LP).
      destruct (Nat.eq_dec o o1) as [->|N].
      * specialize (IH o1). unfold fed in *. rewrite P, updn_same. rewrite O1 in IH. destruct IH as (I1 & I2).
        change (ORead o1 h m :: es') with ([ORead o1 h m] ++ es').
        rewrite !chunks_app, !outcomes_app, !reads_app.
        destruct (noio_nil o1 es' (turn_noio _ _ _ _ _ _ _ T)) as (-> & -> & ->).
        unfold chunks at 2, outcomes at 2, reads at 2. cbn [flat_map]. rewrite Nat.eqb_refl. cbn [app].
        rewrite !app_nil_r, B. cbn [rb_buf rb_queue]. rewrite <- app_assoc. cbn [app]. rewrite <- Q.
        split; [exact I1|]. intros L' Q'. destruct LP as [LP|(_ & H1 & H2 & H3)]; [congruence|].
        right. exists tr, h, m, es'. split; [reflexivity|]. split; [exact H1|]. split; [exact H2|].
        pose proof (qrun_flags _ _ _ R o1) as FL. rewrite O1 in FL. apply (f_hash _ _ _ FL). exact H3.
      * apply (fed_same s); auto.
        -- rewrite P, updn_other by exact N. reflexivity.
        -- intros e [<-|He]; [cbn [noio]; auto|eapply turn_noio; eauto].
        -- intros _. rewrite L1. congruence.
  - destruct (task_state _ _ _ _ _ OT F) as (_ & P & L' & _). apply (fed_same s); auto.
    + rewrite P. reflexivity.
    + eapply tstep_noio; exact T.
    + rewrite L'. auto.
  - cbn [fire] in F. rewrite L in F. destruct C as [(MU & ->)|(MU & ->)].
    + rewrite MU in F. injection F as <-.
      destruct (Nat.eq_dec o (p_objs s)) as [->|N].
      * specialize (IH (p_objs s)). unfold fed in *. rewrite (i_fresh _ _ _ I) in IH by apply le_n.
        destruct IH as (H1 & H2 & H3). cbn [p_obj]. rewrite updn_same.
        rewrite chunks_app, outcomes_app, reads_app, H1, H2, H3.
        cbn [chunks outcomes reads flat_map app k_buf rb_buf rb_queue]. split; [constructor|]. intros _ W. elim (W eq_refl).
      * apply (fed_same s); auto; cbn [p_obj p_loop].
        -- rewrite updn_other by exact N. reflexivity.
        -- intros e [<-|[]]. exact Logic.I.
        -- rewrite L. auto.
    + destruct (p_map s u); [|elim (MU eq_refl)]. injection F as <-. apply (fed_same s); auto.
      intros e [<-|[]]. exact Logic.I.
  - cbn [fire] in F. destruct C as [(v & MU & ->)|(MU & ->)]; rewrite MU in F; injection F as <-;
      apply (fed_same s); auto; intros e [<-|[]]; exact Logic.I.
  - cbn [fire] in F. rewrite L in F. destruct C as [(MU & ->)|(v & c & MU & O & C)].
    { rewrite MU in F. injection F as <-. apply (fed_same s); auto. intros e He. eapply receiving_noio; exact He. }
    rewrite MU, O in F. destruct C as [(D & ->)|(r & b & D & T & ->)]; rewrite D in F.
    { injection F as <-. apply (fed_same s); auto. intros e He. eapply receiving_noio; exact He. }
    rewrite T in F. destruct (Nat.eq_dec o v) as [->|N].
    + set (rest := match r with TReturned (S _) => receiving_err E u (Some v) | _ => [] end).
      assert (NR : forall e, In e rest -> noio v e).
      { intros e He. unfold rest in He. destruct r as [[|n]|]; try (elim He). eapply receiving_noio; exact He. }
      assert (PO : p_obj s' v = Some (put_buf c b)).
      { destruct r as [[|n]|]; injection F as <-; apply updn_same. }
      assert (PL : p_loop s' <> Some v -> r <> TReturned 0).
      { intros W ->. injection F as <-. elim (W eq_refl). }
      specialize (IH v). unfold fed in *. rewrite PO. rewrite O in IH. destruct IH as (I1 & I2).
      change (OChunk v data r :: rest) with ([OChunk v data r] ++ rest).
      rewrite !chunks_app, !outcomes_app, !reads_app.
      destruct (noio_nil v rest NR) as (-> & -> & ->).
      unfold chunks at 2, outcomes at 2, reads at 2. cbn [flat_map]. rewrite Nat.eqb_refl. cbn [app].
      rewrite !app_nil_r. cbn [put_buf k_buf]. split.
      * eapply ts_feeds_snoc; [exact I1|]. exists fuel. unfold ts_chunk in *. cbn [rb_buf rb_queue].
        destruct b as [b' q']. cbn [rb_buf rb_queue]. apply ts_loop_queue. exact T.
      * intros L' _. left. exists (outcomes v tr), r. rewrite outcomes_app.
        change (OChunk v data r :: rest) with ([OChunk v data r] ++ rest). rewrite outcomes_app.
        destruct (noio_nil v rest NR) as (_ & -> & _).
        unfold outcomes at 2. cbn [flat_map]. rewrite Nat.eqb_refl. cbn [app]. auto.
    + apply (fed_same s); auto.
      * assert (p_obj s' o = p_obj s o) as ->; [|reflexivity].
        destruct r as [[|n]|]; injection F as <-; cbn [put_loop put_obj p_obj]; apply updn_other; exact N.
      * intros e [<-|He]; [cbn [noio]; auto|]. destruct r as [[|n]|]; try (elim He). eapply receiving_noio; exact He.
      * intros _. rewrite L. discriminate.
  - cbn [fire] in F. destruct (p_obj s v) as [c|] eqn:O; [|discriminate F]. injection F as <-. apply (fed_same s); auto.
    + cbn [put_obj p_obj]. unfold updn. destruct (Nat.eqb o v) eqn:N; [|reflexivity]. apply Nat.eqb_eq in N. subst. rewrite O. reflexivity.
    + intros e [<-|[]]. exact Logic.I.
  - cbn [fire] in F. destruct (p_obj s v) as [c|] eqn:O; [|discriminate F]. injection F as <-. apply (fed_same s); auto.
    + cbn [put_obj p_obj]. unfold updn. destruct (Nat.eqb o v) eqn:N; [|reflexivity]. apply Nat.eqb_eq in N. subst. rewrite O. reflexivity.
    + intros e [<-|[]]. exact Logic.I.
  - cbn [fire] in F. destruct (p_obj s v) as [c|] eqn:O; [|discriminate F]. injection F as <-. apply (fed_same s); auto.
    + cbn [put_obj p_obj]. unfold updn. destruct (Nat.eqb o v) eqn:N; [|reflexivity]. apply Nat.eqb_eq in N. subst. rewrite O. reflexivity.
    + intros e [<-|[]]. exact Logic.I.
  - rewrite (event_state _ _ _ _ _ _ F). apply (fed_same s); auto.
    intros x Hx. destruct (H x Hx) as [->|(w & y & ->)]; exact Logic.I.
Qed.

End Trace.
