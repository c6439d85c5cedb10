(** The order in which a TypeScript consumer whose application is patient sends its
    messages (TsSystemModel.v [patient]): self key, hashes, calls. *)
From Coq Require Import List NArith Arith Bool Lia.
From Verif Require Import Bytes WireModel FrameModel FrameProofs TsModel TsReader.
From Verif Require Import TsClientModel TsClientProofs TsClientTrace.
From Verif Require TsServerModel TsSystemModel.
Import ListNotations.
Open Scope N_scope.

Section Order.
Variable E : tenv.
Local Notation M := (t_msg E).
Local Notation tst := (tst M).
Local Notation tev := (tev M).
Local Notation sent_up := (TsSystemModel.sent_up E).

Definition plain (es : list tev) : Prop :=
  sent_up es = [] /\ (forall v, ~ In (VReady v) es) /\ ~ In VConnected es.

(** A new promise: its message is sent, or it is settled at once. *)
Definition starts (a : nat) (g : stage M) (es : list tev) : Prop :=
  (forall v, ~ In (VReady v) es) /\
  ((exists n, sent_up es = [(a, n)] /\ g = TWait n) \/ (sent_up es = [] /\ g = TDone)).

Lemma begin_starts (s s' : tst) a w r es : begin E s a w r = Some (s', es) ->
  c_act s a = None /\ (exists g, c_act s' = upd (c_act s) a (Some (w, g)) /\ starts a g es) /\ ~ In VConnected es.
Proof.
  unfold begin. intro H. destruct (c_act s a) eqn:C; [discriminate H|]. split; [reflexivity|].
  destruct r.
  - injection H as <- <-. split; [eexists; split; [reflexivity|]|].
    + split; [intros v W; repeat destruct W as [W|W]; try discriminate W; exact W|]. right. auto.
    + intro W; repeat destruct W as [W|W]; try discriminate W; exact W.
  - destruct (2 ^ 32 <=? c_seq s); [discriminate H|]. destruct (c_pend s (c_seq s)); injection H as <- <-.
    + split; [eexists; split; [reflexivity|]|].
      * split; [intros v W; repeat destruct W as [W|W]; try discriminate W; exact W|]. right. auto.
      * intro W; repeat destruct W as [W|W]; try discriminate W; exact W.
    + split; [eexists; split; [reflexivity|]|].
      * split; [intros v W; repeat destruct W as [W|W]; try discriminate W; exact W|]. right. auto.
      * intro W; repeat destruct W as [W|W]; try discriminate W; exact W.
  - destruct (2 ^ 32 <=? c_seq s); [discriminate H|]. destruct (c_pend s (c_seq s)); [discriminate H|]. injection H as <- <-.
    split; [eexists; split; [reflexivity|]|].
    + split; [intros v W; repeat destruct W as [W|W]; try discriminate W; exact W|]. left. eexists. split; reflexivity.
    + intro W; repeat destruct W as [W|W]; try discriminate W; exact W.
Qed.

Lemma send_starts (s s' : tst) a w o r es : send E s a w o r = Some (s', es) ->
  c_act s a = None /\ (exists g, c_act s' = upd (c_act s) a (Some (w, g)) /\ starts a g es) /\ ~ In VConnected es.
Proof.
  unfold send. intro H. destruct (c_act s a) eqn:C; [discriminate H|].
  destruct (c_obj s o).
  - apply begin_starts in H. cbn [set_obj c_act] in H. destruct H as (_ & H). split; [reflexivity|exact H].
  - injection H as <- <-. split; [reflexivity|]. split; [eexists; split; [reflexivity|]|].
    + split; [intros v W; repeat destruct W as [W|W]; try discriminate W; exact W|]. right. auto.
    + intro W; repeat destruct W as [W|W]; try discriminate W; exact W.
  - injection H as <- <-. split; [reflexivity|]. split; [eexists; split; [reflexivity|]|].
    + split; [intros v W; repeat destruct W as [W|W]; try discriminate W; exact W|]. right. auto.
    + intro W; repeat destruct W as [W|W]; try discriminate W; exact W.
Qed.

(** An answer to the self key with which the handshake cannot go on. *)
Definition no_uuid (m : M) : Prop := t_self E m = None \/ exists x, t_self E m = Some x /\ t_blank E x = true.

(** [fire], seen from the promises. *)
Lemma fire_acts (s s' : tst) tr l es : inv E s tr -> fire E s l = Some (s', es) ->
  (c_act s' = c_act s /\ plain es) \/
  (exists a w n m, c_act s a = Some (w, TWait n) /\ c_act s' = upd (c_act s) a (Some (w, TGot n m)) /\ plain es) \/
  (exists a w n m g, c_act s a = Some (w, TGot n m) /\ c_act s' = upd (c_act s) a (Some (w, g)) /\
     (g = TDone \/ exists v, w = WAssign true /\ g = THash v) /\ sent_up es = [] /\ ~ In VConnected es /\
     (forall v, In (VReady v) es -> w = WHash v /\ g = TDone) /\
     (w = WAssign true -> g = TDone -> no_uuid m) /\
     (forall v, w = WHash v -> In (VReady v) es \/ (t_hash E m <> Some None /\ forall x, ~ In (VReady x) es))) \/
  (exists a b w v g r, l = LHash a b r /\ c_act s a = Some (w, THash v) /\ b <> a /\ c_act s b = None /\
     c_act s' = upd (upd (c_act s) a (Some (w, TDone))) b (Some (WHash v, g)) /\ starts b g es /\ ~ In VConnected es) \/
  (exists a w g r, c_act s a = None /\ c_act s' = upd (c_act s) a (Some (w, g)) /\ starts a g es /\
     ((l = LSend a w r /\ on w <> None /\ ~ In VConnected es) \/ (l = LAssign a r /\ w = WAssign false /\ ~ In VConnected es) \/
      (l = LConnected a r /\ w = WAssign true /\ In VConnected es))).
Proof.
  intros I F. destruct l; cbn [fire] in F.
  - do 4 right. destruct w as [| |k o|k o]; try discriminate F; destruct (send_starts _ _ _ _ _ _ _ F) as (H1 & (g & H2 & H3) & H4);
      eexists a, _, g, r; (split; [exact H1|]; split; [exact H2|]; split; [exact H3|]; left; split; [reflexivity|]; split; [discriminate|exact H4]).
  - do 4 right. destruct (begin_starts _ _ _ _ _ _ F) as (H1 & (g & H2 & H3) & H4).
    exists a, (WAssign false), g, r. split; [exact H1|]. split; [exact H2|]. split; [exact H3|]. right. left. auto.
  - left. injection F as <- <-. split; [reflexivity|]. repeat split; [intros v []|intros []].
  - do 4 right. destruct (c_drain s); [discriminate F|].
    destruct (begin E s a (WAssign true) r) as [[s1 es1]|] eqn:B; [|discriminate F]. injection F as <- <-.
    destruct (begin_starts _ _ _ _ _ _ B) as (H1 & (g & H2 & H3 & H5) & H4).
    exists a, (WAssign true), g, r. split; [exact H1|]. split; [exact H2|]. split.
    + split.
      * intros v W. apply in_app_iff in W as [W|[W|[]]]; [elim (H3 v W)|discriminate W].
      * unfold TsSystemModel.sent_up in *. rewrite flat_map_app. cbn [flat_map]. rewrite !app_nil_r. exact H5.
    + right. right. split; [reflexivity|]. split; [reflexivity|]. apply in_app_iff. right. left. reflexivity.
  - destruct (c_drain s); [discriminate F|]. injection F as <- <-. left. split; [reflexivity|].
    split; [reflexivity|]. split; [intros v [W|[]]; discriminate W|intros [W|[]]; discriminate W].
  - destruct (c_drain s); [discriminate F|]. injection F as <- <-. left. split; [reflexivity|].
    split; [reflexivity|]. split; [intros v [W|[]]; discriminate W|intros [W|[]]; discriminate W].
  - destruct (c_drain s); [discriminate F|]. destruct (ts_chunk _ _ _ _ _) as [[o b]|]; [|discriminate F]. injection F as <- <-.
    left. split; [reflexivity|]. split; [reflexivity|]. split; [intros v [W|[]]; discriminate W|intros [W|[]]; discriminate W].
  - destruct (c_drain s); [|discriminate F]. destruct (rb_queue (c_buf s)) as [|[h m] q].
    + injection F as <- <-. left. split; [reflexivity|]. repeat split; [intros v []|intros []].
    + cbn [set_buf c_pend c_act] in F. destruct (c_pend s (h_seq h)) as [a|] eqn:P.
      * destruct (i_pend E _ _ I _ _ P) as (_ & w & C). rewrite C in F. injection F as <- <-. right. left.
        exists a, w, (h_seq h), m. split; [exact C|]. split; [reflexivity|].
        split; [reflexivity|]. split; [intros v W|intro W]; repeat destruct W as [W|W]; try discriminate W; exact W.
      * left. destruct (t_broadcast E m); injection F as <- <-; (split; [reflexivity|]);
          (split; [reflexivity|]; split; [intros v W|intro W]; repeat destruct W as [W|W]; try discriminate W; exact W).
  - destruct (c_drain s); [discriminate F|]. destruct (c_act s a) as [[w [|n m| |]]|] eqn:C; try discriminate F.
    injection F as F. right. right. left.
    assert (G : forall g es' (Q : c_act s' = upd (c_act s) a (Some (w, g))), es = es' ->
      (g = TDone \/ exists v, w = WAssign true /\ g = THash v) ->
      sent_up es' = [] -> ~ In VConnected es' -> (forall v, In (VReady v) es' -> w = WHash v /\ g = TDone) ->
      (w = WAssign true -> g = TDone -> no_uuid m) ->
      (forall v, w = WHash v -> In (VReady v) es' \/ (t_hash E m <> Some None /\ forall x, ~ In (VReady x) es')) ->
      exists a0 w0 n0 m0 g0, c_act s a0 = Some (w0, TGot n0 m0) /\ c_act s' = upd (c_act s) a0 (Some (w0, g0)) /\
        (g0 = TDone \/ exists v, w0 = WAssign true /\ g0 = THash v) /\ sent_up es = [] /\ ~ In VConnected es /\
        (forall v, In (VReady v) es -> w0 = WHash v /\ g0 = TDone) /\
        (w0 = WAssign true -> g0 = TDone -> no_uuid m0) /\
        (forall v, w0 = WHash v -> In (VReady v) es \/ (t_hash E m0 <> Some None /\ forall x, ~ In (VReady x) es))).
    { intros g es' Q -> H1 H2 H3 H4 H5 H6. exists a, w, n, m, g. auto 12. }
    assert (ONE : forall r, sent_up [VRet a r] = [] /\ ~ In VConnected [VRet a r] /\ forall (g : stage M) v, In (VReady v) [VRet a r] -> w = WHash v /\ g = TDone).
    { intro r. split; [reflexivity|]. split; [intros [W|[]]; discriminate W|intros g v [W|[]]; discriminate W]. }
    unfold resume in F. destruct w as [auto|v|k o|k o].
    + destruct (t_self E m) as [v|] eqn:TS.
      2:{ injection F as <- <-. destruct (ONE (RetErr EUnexpected)) as (O1 & O2 & O3).
          eapply G; [reflexivity|reflexivity|left; reflexivity|exact O1|exact O2|apply O3|left; exact TS|discriminate]. }
      destruct (c_uuid (set_uuid s (keep_uuid E (c_uuid s) v))) eqn:CU.
      * injection F as <- <-. destruct (ONE (RetUuid v)) as (O1 & O2 & O3).
        eapply G; [reflexivity|reflexivity| |exact O1|exact O2|apply O3| |discriminate]; [destruct auto; [right; eauto|left; reflexivity]|].
        intros W1 W2. injection W1 as ->. discriminate W2.
      * injection F as <- <-. destruct (ONE (RetErr EUuid)) as (O1 & O2 & O3).
        eapply G; [reflexivity|reflexivity|left; reflexivity|exact O1|exact O2|apply O3| |discriminate].
        intros _ _. right. exists v. split; [exact TS|]. cbn [set_uuid c_uuid] in CU. unfold keep_uuid in CU.
        destruct (t_blank E v); [reflexivity|]. destruct (c_uuid s); discriminate CU.
    + destruct (t_hash E m) as [[t|]|] eqn:TH.
      * injection F as <- <-. destruct (ONE (RetErr (EText t))) as (O1 & O2 & O3).
        eapply G; [reflexivity|reflexivity|left; reflexivity|exact O1|exact O2|apply O3|discriminate|]. intros x _. right. split; [congruence|intros y [W|[]]; discriminate W].
      * injection F as <- <-. eapply G; [reflexivity|reflexivity|left; reflexivity|reflexivity| | |discriminate|].
        -- intro W; repeat destruct W as [W|W]; try discriminate W; exact W.
        -- intros w W; repeat destruct W as [W|W]; try discriminate W; [|elim W]. injection W as <-. auto.
        -- intros x W. injection W as <-. left. right. left. reflexivity.
      * injection F as <- <-. destruct (ONE (RetErr EUnexpected)) as (O1 & O2 & O3).
        eapply G; [reflexivity|reflexivity|left; reflexivity|exact O1|exact O2|apply O3|discriminate|]. intros x _. right. split; [congruence|intros y [W|[]]; discriminate W].
    + destruct (c_obj s o).
      * injection F as <- <-. eapply G; [reflexivity|reflexivity|left; reflexivity|reflexivity|intros []|intros v []|discriminate|discriminate].
      * injection F as <- <-. eapply G; [reflexivity|reflexivity|left; reflexivity|apply ONE|apply ONE|apply ONE|discriminate|discriminate].
      * injection F as <- <-. eapply G; [reflexivity|reflexivity|left; reflexivity|apply ONE|apply ONE|apply ONE|discriminate|discriminate].
    + destruct (c_obj s o).
      * injection F as <- <-. eapply G; [reflexivity|reflexivity|left; reflexivity|reflexivity|intros []|intros v []|discriminate|discriminate].
      * injection F as <- <-. eapply G; [reflexivity|reflexivity|left; reflexivity|apply ONE|apply ONE|apply ONE|discriminate|discriminate].
      * injection F as <- <-. eapply G; [reflexivity|reflexivity|left; reflexivity|apply ONE|apply ONE|apply ONE|discriminate|discriminate].
  - destruct (c_drain s); [discriminate F|]. destruct (c_act s a) as [[w [| |v|]]|] eqn:C; try discriminate F.
    do 3 right. left. destruct (begin_starts _ _ _ _ _ _ F) as (H1 & (g & H2 & H3) & H4). cbn [set_act c_act] in H1, H2.
    assert (NE : b <> a) by (intros ->; unfold upd in H1; rewrite Nat.eqb_refl in H1; discriminate H1).
    exists a, b, w, v, g, r. split; [reflexivity|]. split; [exact C|]. split; [exact NE|].
    split; [rewrite upd_other in H1 by exact NE; exact H1|]. auto.
Qed.

(** The four phases. *)
Definition no_ready (tr : list tev) : Prop := forall v, ~ In (VReady v) tr.

Inductive order (s : tst) (tr : list tev) : Prop :=
| order_start : ~ In VConnected tr -> (forall a, c_act s a = None) -> sent_up tr = [] -> no_ready tr -> order s tr
| order_self a g : In VConnected tr -> c_act s a = Some (WAssign true, g) -> (forall x, x <> a -> c_act s x = None) -> no_ready tr ->
    ((exists n, sent_up tr = [(a, n)] /\ (g = TDone -> exists m, In (VMatch a n m) tr /\ no_uuid m)) \/ (sent_up tr = [] /\ g = TDone)) -> order s tr
| order_hash a b v g n : In VConnected tr -> a <> b -> c_act s a = Some (WAssign true, TDone) -> c_act s b = Some (WHash v, g) ->
    (forall x, x <> a -> x <> b -> c_act s x = None) -> no_ready tr ->
    ((exists k, sent_up tr = [(a, n); (b, k)] /\ (g = TDone -> exists m, In (VMatch b k m) tr /\ t_hash E m <> Some None)) \/
     (sent_up tr = [(a, n)] /\ g = TDone)) -> order s tr
| order_ready a b v n k rest : In VConnected tr -> a <> b -> c_act s a = Some (WAssign true, TDone) -> c_act s b = Some (WHash v, TDone) ->
    (forall x w g, x <> a -> x <> b -> c_act s x = Some (w, g) -> on w <> None) -> 
    sent_up tr = (a, n) :: (b, k) :: rest -> (exists x, In (VReady x) tr) ->
    (forall x j, In (x, j) rest -> exists w g, c_act s x = Some (w, g) /\ on w <> None) -> order s tr.

Lemma sent_up_app a b : sent_up (a ++ b) = sent_up a ++ sent_up b.
Proof. apply flat_map_app. Qed.

Lemma no_ready_app tr es : no_ready tr -> (forall v, ~ In (VReady v) es) -> no_ready (tr ++ es).
Proof. intros H1 H2 v W. apply in_app_iff in W as [W|W]; [elim (H1 v W)|elim (H2 v W)]. Qed.

Lemma got_match ls s tr a w n m : trun E ls s tr -> c_act s a = Some (w, TGot n m) -> In (VMatch a n m) tr.
Proof.
  intros R C. pose proof (i_shape E _ _ (trun_inv E _ _ _ R) a) as SH. rewrite C in SH. cbn [shape] in SH.
  apply (in_life E a tr); [cbn [about]; apply Nat.eqb_refl|]. rewrite SH. right. right. left. reflexivity.
Qed.

Lemma sent_got ls s tr a w n m k : trun E ls s tr -> c_act s a = Some (w, TGot n m) -> In (a, k) (sent_up tr) -> k = n.
Proof.
  intros R C W. pose proof (i_shape E _ _ (trun_inv E _ _ _ R) a) as SH. rewrite C in SH. cbn [shape] in SH.
  assert (W' : In (VNum a k SOk) tr).
  { unfold TsSystemModel.sent_up in W. apply in_flat_map in W as (e & He & W). destruct e as [|b n' [| |]| | | | | | | | | |]; try (elim W; fail).
    destruct W as [W|[]]. injection W as <- <-. exact He. }
  apply (in_life E a tr) in W'; [|cbn [about]; apply Nat.eqb_refl]. rewrite SH in W'.
  repeat destruct W' as [W'|W']; try discriminate W'; [|elim W']. injection W' as <-. reflexivity.
Qed.

Lemma order_step ls s tr l s' es : trun E ls s tr -> fire E s l = Some (s', es) ->
  TsSystemModel.own_step E tr l \/ (exists d f, l = LData d f) -> TsSystemModel.patient E tr l -> order s tr -> order s' (tr ++ es).
Proof.
  intros R F OW PA O. pose proof (trun_inv E _ _ _ R) as I.
  assert (IV : forall x, In x tr -> In x (tr ++ es)) by (intros x W; apply in_app_iff; auto).
  assert (IR : (exists x, In (VReady x) tr) -> exists x, In (VReady x) (tr ++ es)) by (intros (x & W); eauto).
  assert (IM : forall a n (Q : M -> Prop), (exists m, In (VMatch a n m) tr /\ Q m) -> exists m, In (VMatch a n m) (tr ++ es) /\ Q m)
    by (intros a n Q (m & W & W'); eauto).
  destruct (fire_acts _ _ _ _ _ I F) as [(C & P1 & P2 & P3)|[(x & w & n & m & C0 & C & P1 & P2 & P3)|
    [(x & w & n & m & g & C0 & C & G & P1 & P3 & RD & NU & NH)|[(x & y & w & v & g & r & -> & C0 & NE & CY & C & (P2 & ST) & P3)|(x & w & g & r & C0 & C & (P2 & ST) & HL)]]]].
  - (* nothing *)
    assert (SU : sent_up (tr ++ es) = sent_up tr) by (rewrite sent_up_app, P1, app_nil_r; reflexivity).
    destruct O as [H1 H2 H3 H4|a g H1 H2 H3 H4 H5|a b v g n H1 H0 H2 H3 H4 H5 H6|a b v n k rest H1 H0 H2 H3 H4 H5 HR H6].
    + apply order_start; [|intro a; rewrite C; apply H2|congruence|apply no_ready_app; assumption].
      intro W. apply in_app_iff in W as [W|W]; auto.
    + apply (order_self _ _ a g); rewrite ?C, ?SU; auto; [apply no_ready_app; assumption|].
      destruct H5 as [(n & H5 & H6)|H5]; [left; exists n; auto|right; exact H5].
    + apply (order_hash _ _ a b v g n); rewrite ?C, ?SU; auto; [apply no_ready_app; assumption|].
      destruct H6 as [(k & H6 & H7)|H6]; [left; exists k; auto|right; exact H6].
    + apply (order_ready _ _ a b v n k rest); rewrite ?C, ?SU; auto.
  - (* an answer *)
    assert (SU : sent_up (tr ++ es) = sent_up tr) by (rewrite sent_up_app, P1, app_nil_r; reflexivity).
    destruct O as [H1 H2 H3 H4|a g H1 H2 H3 H4 H5|a b v g k H1 H0 H2 H3 H4 H5 H6|a b v k k' rest H1 H0 H2 H3 H4 H5 HR H6].
    + rewrite H2 in C0. discriminate C0.
    + destruct (Nat.eq_dec x a) as [->|NE]; [|rewrite H3 in C0 by exact NE; discriminate C0].
      rewrite H2 in C0. injection C0 as <- ->.
      apply (order_self _ _ a (TGot n m)); rewrite ?C, ?SU; auto.
      * apply upd_same.
      * intros y NY. rewrite ?C. rewrite upd_other by exact NY. auto.
      * apply no_ready_app; assumption.
      * destruct H5 as [(j & H5 & _)|(_ & H5)]; [|discriminate H5]. left. exists j. split; [exact H5|discriminate].
    + destruct (Nat.eq_dec x a) as [->|NA]; [rewrite H2 in C0; discriminate C0|].
      destruct (Nat.eq_dec x b) as [->|NB]; [|rewrite H4 in C0 by assumption; discriminate C0].
      rewrite H3 in C0. injection C0 as <- ->.
      apply (order_hash _ _ a b v (TGot n m) k); rewrite ?C, ?SU; auto.
      * rewrite upd_other by auto. exact H2.
      * apply upd_same.
      * intros y NY NY'. rewrite ?C. rewrite upd_other by exact NY'. auto.
      * apply no_ready_app; assumption.
      * destruct H6 as [(j & H6 & _)|(_ & H6)]; [|discriminate H6]. left. exists j. split; [exact H6|discriminate].
    + destruct (Nat.eq_dec x a) as [->|NA]; [rewrite H2 in C0; discriminate C0|].
      destruct (Nat.eq_dec x b) as [->|NB]; [rewrite H3 in C0; discriminate C0|].
      apply (order_ready _ _ a b v k k' rest); rewrite ?C, ?SU; auto.
      * rewrite upd_other by auto. exact H2.
      * rewrite upd_other by auto. exact H3.
      * intros y w' g' NY NY' W. rewrite ?C in W. unfold upd in W. destruct (Nat.eqb y x); [|eapply H4; eauto]. injection W as <- _. exact (H4 _ _ _ NA NB C0).
      * intros y j W. destruct (H6 y j W) as (w' & g' & W1 & W2). rewrite ?C. unfold upd. destruct (Nat.eqb_spec y x) as [->|]; [|eauto].
        rewrite C0 in W1. injection W1 as <- <-. eauto.
  - (* a continuation *)
    assert (SU : sent_up (tr ++ es) = sent_up tr) by (rewrite sent_up_app, P1, app_nil_r; reflexivity).
    destruct O as [H1 H2 H3 H4|a g' H1 H2 H3 H4 H5|a b v g' k H1 H0 H2 H3 H4 H5 H6|a b v k k' rest H1 H0 H2 H3 H4 H5 HR H6].
    + rewrite H2 in C0. discriminate C0.
    + destruct (Nat.eq_dec x a) as [->|NE]; [|rewrite H3 in C0 by exact NE; discriminate C0].
      rewrite H2 in C0. injection C0 as <- ->.
      apply (order_self _ _ a g); rewrite ?C, ?SU; auto.
      * apply upd_same.
      * intros y NY. rewrite ?C. rewrite upd_other by exact NY. auto.
      * apply no_ready_app; [assumption|]. intros v W. destruct (RD v W) as (W' & _). discriminate W'.
      * destruct H5 as [(j & H5 & _)|(_ & H5)]; [|discriminate H5]. left. exists j. split; [exact H5|].
        intros ->. exists m. split; [|exact (NU eq_refl eq_refl)]. apply IV.
        assert (j = n) as -> by (eapply sent_got; [exact R|exact H2|rewrite H5; left; reflexivity]). exact (got_match _ _ _ _ _ _ _ R H2).
    + destruct (Nat.eq_dec x a) as [->|NA]; [rewrite H2 in C0; discriminate C0|].
      destruct (Nat.eq_dec x b) as [->|NB]; [|rewrite H4 in C0 by assumption; discriminate C0].
      rewrite H3 in C0. injection C0 as <- ->. destruct G as [->|(v' & G & _)]; [|discriminate G].
      destruct H6 as [(k' & H6 & _)|(_ & H6)]; [|discriminate H6].
      destruct (NH v eq_refl) as [HV|(NV & NRV)].
      2:{ apply (order_hash _ _ a b v TDone k); rewrite ?C, ?SU; auto.
          * rewrite upd_other by auto. exact H2.
          * apply upd_same.
          * intros y NY NY'. rewrite upd_other by exact NY'. auto.
          * apply no_ready_app; assumption.
          * left. exists k'. split; [exact H6|]. intros _. exists m. split; [|exact NV]. apply IV.
            assert (k' = n) as -> by (eapply sent_got; [exact R|exact H3|rewrite H6; right; left; reflexivity]). exact (got_match _ _ _ _ _ _ _ R H3). }
      apply (order_ready _ _ a b v k k' []); rewrite ?C, ?SU; auto.
      * rewrite upd_other by auto. exact H2.
      * apply upd_same.
      * intros y w' g'' NY NY' W. rewrite ?C in W. rewrite upd_other in W by exact NY'. rewrite H4 in W by assumption. discriminate W.
      * exists v. apply in_app_iff. auto.
      * intros y j [].
    + destruct (Nat.eq_dec x a) as [->|NA]; [rewrite H2 in C0; discriminate C0|].
      destruct (Nat.eq_dec x b) as [->|NB]; [rewrite H3 in C0; discriminate C0|].
      apply (order_ready _ _ a b v k k' rest); rewrite ?C, ?SU; auto.
      * rewrite upd_other by auto. exact H2.
      * rewrite upd_other by auto. exact H3.
      * intros y w' g'' NY NY' W. rewrite ?C in W. unfold upd in W. destruct (Nat.eqb y x); [|eapply H4; eauto]. injection W as <- _. exact (H4 _ _ _ NA NB C0).
      * intros y j W. destruct (H6 y j W) as (w' & g'' & W1 & W2). rewrite ?C. unfold upd. destruct (Nat.eqb_spec y x) as [->|]; [|eauto].
        rewrite C0 in W1. injection W1 as <- <-. eauto.
  - (* the hashes *)
    destruct O as [H1 H2 H3 H4|a g' H1 H2 H3 H4 H5|a b v' g' k H1 H0 H2 H3 H4 H5 H6|a b v' k k' rest H1 H0 H2 H3 H4 H5 HR H6].
    + rewrite H2 in C0. discriminate C0.
    + destruct (Nat.eq_dec x a) as [->|NA]; [|rewrite H3 in C0 by exact NA; discriminate C0].
      rewrite H2 in C0. injection C0 as <- ->. destruct H5 as [(n & H5 & _)|(_ & H5)]; [|discriminate H5].
      apply (order_hash _ _ a y v g n); rewrite ?C; auto.
      * rewrite upd_other, upd_same by auto. reflexivity.
      * apply upd_same.
      * intros z NZ NZ'. rewrite ?C. rewrite !upd_other by assumption. auto.
      * apply no_ready_app; assumption.
      * rewrite sent_up_app, H5. destruct ST as [(j & ST & ->)|(ST & SG)]; rewrite ST; [left; exists j; split; [reflexivity|discriminate]|right; auto].
    + destruct (Nat.eq_dec x a) as [->|NA]; [rewrite H2 in C0; discriminate C0|].
      destruct (Nat.eq_dec x b) as [->|NB]; [|rewrite H4 in C0 by assumption; discriminate C0].
      rewrite H3 in C0. injection C0 as <- ->.
      pose proof (i_shape E _ _ I b) as SH. rewrite H3 in SH. destruct SH as (j & m & W & _). discriminate W.
    + destruct (Nat.eq_dec x a) as [->|NA]; [rewrite H2 in C0; discriminate C0|].
      destruct (Nat.eq_dec x b) as [->|NB]; [rewrite H3 in C0; discriminate C0|].
      pose proof (i_shape E _ _ I x) as SH. rewrite C0 in SH. destruct SH as (j & m & -> & _).
      elim (H4 _ _ _ NA NB C0). reflexivity.
  - (* a new promise *)
    assert (NR : no_ready tr -> no_ready (tr ++ es)) by (intro W; apply no_ready_app; assumption).
    destruct HL as [(-> & ONW & NC)|[(-> & _)|(-> & -> & NC)]].
    + cbn [TsSystemModel.patient] in PA. destruct PA as (v0 & PA).
      destruct O as [H1 H2 H3 H4|a g' H1 H2 H3 H4 H5|a b v' g' k H1 H0 H2 H3 H4 H5 H6|a b v' k k' rest H1 H0 H2 H3 H4 H5 HR H6];
        try (elim (H4 _ PA); fail); try (elim (H5 _ PA); fail).
      assert (NA : x <> a) by (intros ->; congruence). assert (NB : x <> b) by (intros ->; congruence).
      apply (order_ready _ _ a b v' k k' (rest ++ sent_up es)); rewrite ?C; auto.
      * rewrite upd_other by auto. exact H2.
      * rewrite upd_other by auto. exact H3.
      * intros y w' g' NY NY' W. rewrite ?C in W. unfold upd in W. destruct (Nat.eqb y x); [|eapply H4; eauto]. injection W as <- _. exact ONW.
      * rewrite sent_up_app, H5. reflexivity.
      * intros y j W. apply in_app_iff in W as [W|W].
        -- destruct (H6 y j W) as (w' & g' & W1 & W2). rewrite ?C, upd_other by congruence. eauto.
        -- destruct ST as [(j' & ST & _)|(ST & _)]; rewrite ST in W; [|elim W]. destruct W as [W|[]]. injection W as <- <-.
           rewrite ?C, upd_same. eauto.
    + elim PA.
    + destruct OW as [OW|(d & f & OW)]; [|discriminate OW]. cbn [TsSystemModel.own_step] in OW.
      destruct O as [H1 H2 H3 H4|a g' H1 H2 H3 H4 H5|a b v' g' k H1 H0 H2 H3 H4 H5 H6|a b v' k k' rest H1 H0 H2 H3 H4 H5 HR H6];
        try (elim (OW H1); fail).
      apply (order_self _ _ x g); rewrite ?C; auto.
      * apply in_app_iff. auto.
      * apply upd_same.
      * intros y NY. rewrite ?C. rewrite upd_other by exact NY. auto.
      * rewrite sent_up_app, H3. destruct ST as [(j & ST & ->)|ST]; [left; exists j; split; [exact ST|discriminate]|right; exact ST].
Qed.

End Order.
