(** The uuid of a consumer: once 'connected' has been reported, calls made later are
    sent with a uuid, as long as the transport does not report a disconnect. *)
From Coq Require Import List NArith Bool Lia Arith.
From Verif Require Import Bytes WireModel FrameModel.
From Verif Require Import ConsumerModel ConsumerProofs ConsumerInv ConsumerTrace ConsumerTrace2.
Import ListNotations.

Section Named.
Variable E : cenv.
Notation st := (st E).
Notation out := (out E).
Notation acts := (s_acts E).

Ltac crack H :=
  repeat match type of H with
  | context [match ?x with _ => _ end] =>
    lazymatch x with
    | context [match _ with _ => _ end] => fail
    | _ => destruct x eqn:?; try discriminate H
    end
  end.
Ltac open F :=
  unfold run_act, request, ask, fails, end_auth, return_, api_cmd, client_event, next_msg, not_accepted, dispatch,
    auth_msg, end_msg, end_api, emit, crash in F; cbn zeta in F; crack F.

(** What a step does to the uuid. *)
Lemma fire_uuid l (s s' : st) t : fire E l s = Some (s', t) -> l <> LEvent E InDisconnected ->
  s_uuid E s' = s_uuid E s /\ ~ In (XEmit E (EConnected E)) t \/ exists u, s_uuid E s' = Some u.
Proof.
  intros F N. destruct l; cbn [fire] in F; open F.
  all: try solve [exfalso; apply N; f_equal; congruence].
  all: injection F as <- <-; cbn.
  all: try solve [left; split; [reflexivity|intros J; repeat destruct J as [J|J]; try discriminate J; contradiction]].
  all: right; eauto.
Qed.

(** Who is told the uuid is told the present one. *)
Lemma fire_told l (s s' : st) t b k n u : fire E l s = Some (s', t) -> ids_ok E s ->
  act E b (acts s') = Some (k, GUuid E n u) -> act E b (acts s) = Some (k, GUuid E n u) \/ u = s_uuid E s.
Proof.
  intros F I. destruct l; cbn [fire] in F; open F.
  all: injection F as <- <-; cbn.
  all: try (left; assumption).
  all: rewrite ?act_put_any; try (rewrite act_del_any by apply I).
  all: try match goal with |- context [Nat.eqb ?x ?y] => destruct (Nat.eqb x y) eqn:B; [apply Nat.eqb_eq in B; subst|auto] end.
  all: try discriminate.
  all: cbn in *.
  all: try match goal with H : act E ?x (acts ?z) = Some _ |- context [act E ?x (acts ?z)] => rewrite H end.
  all: try (intros [= <- <- <-]; auto).
  all: auto.
Qed.

Lemma fire_packed l (s s' : st) t n x u b : fire E l s = Some (s', t) ->
  In (QRequest E n (PUser E x u) b) (s_q E s') ->
  In (QRequest E n (PUser E x u) b) (s_q E s) \/ exists k n', act E b (acts s) = Some (k, GUuid E n' u).
Proof.
  intros F. destruct l; cbn [fire] in F; open F.
  all: injection F as <- <-; cbn.
  all: try (intros J; left; exact J).
  all: try contradiction.
  all: try (rewrite in_app_iff; cbn).
  all: try match goal with H : s_q E ?z = _ :: _ |- _ => rewrite H; cbn; auto end.
  all: try (intros [J|[J|[]]]; [left; exact J|try discriminate J]).
  all: try match goal with H : QRequest E _ _ _ = QRequest E _ _ _ |- _ => injection H; intros; subst; right; eauto end.
  all: tauto.
Qed.

Lemma fire_sent l (s s' : st) t n x u b ok : fire E l s = Some (s', t) ->
  In (XSend E b n (PUser E x u) ok) t -> In (QRequest E n (PUser E x u) b) (s_q E s).
Proof.
  intros F. destruct l; cbn [fire] in F; open F.
  all: injection F as <- <-; cbn.
  all: intros J; repeat destruct J as [J|J]; try discriminate J; try contradiction.
  all: injection J; intros; subst.
  all: left; reflexivity.
Qed.

Lemma fire_called l (s s' : st) t b k : fire E l s = Some (s', t) -> In (XCall E b k) t ->
  b = s_next E s /\ s' = add_act E k s /\ t = [XCall E b k].
Proof.
  intros F. destruct l; cbn [fire] in F; open F.
  all: injection F as <- <-; cbn.
  all: intros J; repeat destruct J as [J|J]; try discriminate J; try contradiction.
  all: injection J; intros; subst; auto.
Qed.

(** Activity [a] was begun by the application after 'connected' was reported. *)
Definition late (a : nat) (tr : list out) : Prop :=
  exists t1 k t2, tr = t1 ++ XCall E a k :: t2 /\ In (XEmit E (EConnected E)) t1.

Lemma late_in a tr : late a tr -> (exists k, In (XCall E a k) tr) /\ In (XEmit E (EConnected E)) tr.
Proof.
  intros (t1&k&t2&->&C). split; [exists k; apply in_elt|]. apply in_app_iff. auto.
Qed.

Lemma late_app a tr t : late a (tr ++ t) -> late a tr \/ exists k, In (XCall E a k) t.
Proof.
  intros (t1&k&t2&Q&C). destruct (app_eq_app _ _ _ _ Q) as (l&[[Q1 Q2]|[Q1 Q2]]).
  - destruct l as [|o l]; cbn in Q2.
    + right. exists k. rewrite <- Q2. left. reflexivity.
    + injection Q2 as <- Q2. left. exists t1, k, l. auto.
  - right. exists k. rewrite Q2. apply in_elt.
Qed.

Record met (tr : list out) (s : st) : Prop := {
  m_known : In (XEmit E (EConnected E)) tr -> s_uuid E s <> None;
  m_told : forall a k n u, late a tr -> act E a (acts s) = Some (k, GUuid E n u) -> u <> None;
  m_packed : forall a n x u, late a tr -> In (QRequest E n (PUser E x u) a) (s_q E s) -> u <> None;
  m_sent : forall a n x u ok, late a tr -> In (XSend E a n (PUser E x u) ok) tr -> u <> None
}.

Lemma fire_met l tr (s s' : st) t : fire E l s = Some (s', t) -> l <> LEvent E InDisconnected ->
  inv E tr s -> met tr s -> met (tr ++ t) s'.
Proof.
  intros F N I [M1 M2 M3 M4]. pose proof (i_ids _ _ _ I) as IDS.
  assert (NEW : forall a k, In (XCall E a k) t -> act E a (acts s) = None /\
    (forall n p, ~ In (QRequest E n p a) (s_q E s)) /\ (forall n p ok, ~ In (XSend E a n p ok) tr)).
  { intros a k J. destruct (fire_called _ _ _ _ _ _ F J) as (->&_&_). split; [apply fresh_act; exact IDS|]. split.
    - intros n p Q. pose proof (sender_lt E s _ _ IDS (i_senders _ _ _ I) (req_sender E s _ _ _ Q)). lia.
    - intros n p ok Q. pose proof (l_lt _ _ _ (i_life _ _ _ I) (s_next E s) _ Q eq_refl). lia. }
  split.
  - intros J. destruct (fire_uuid _ _ _ _ F N) as [[U K]|[u U]]; [|rewrite U; discriminate].
    rewrite U. apply M1. apply in_app_iff in J. tauto.
  - intros a k n u L A. destruct (late_app _ _ _ L) as [L1|[k' J]].
    + destruct (fire_told _ _ _ _ _ _ _ _ F IDS A) as [B| ->]; [eapply M2; eauto|].
      apply M1. apply (late_in _ _ L1).
    + destruct (fire_called _ _ _ _ _ _ F J) as (->&->&_). cbn in A. rewrite Nat.eqb_refl in A. discriminate.
  - intros a n x u L Q. destruct (late_app _ _ _ L) as [L1|[k' J]].
    + destruct (fire_packed _ _ _ _ _ _ _ _ F Q) as [B|(k&n'&B)]; [eapply M3; eauto|eapply M2; eauto].
    + destruct (fire_called _ _ _ _ _ _ F J) as (->&->&_). cbn in Q.
      destruct (NEW _ _ J) as (_&B&_). destruct (B _ _ Q).
  - intros a n x u ok L Q. apply in_app_iff in Q. destruct (late_app _ _ _ L) as [L1|[k' J]].
    + destruct Q as [Q|Q]; [eapply M4; eauto|]. eapply M3; [exact L1|]. eapply fire_sent; eauto.
    + destruct (NEW _ _ J) as (_&B1&B2). destruct Q as [Q|Q]; [destruct (B2 _ _ _ Q)|].
      destruct (B1 _ _ (fire_sent _ _ _ _ _ _ _ _ _ F Q)).
Qed.

Lemma runs_met ls : forall tr (s s' : st) t, runs E ls s = Some (s', t) -> ~ In (LEvent E InDisconnected) ls ->
  inv E tr s -> met tr s -> met (tr ++ t) s'.
Proof.
  induction ls as [|l ls IH]; intros tr s s' t R N I M; cbn in R.
  - injection R as <- <-. rewrite app_nil_r. exact M.
  - destruct (fire E l s) as [[s1 t1]|] eqn:F; [|discriminate].
    destruct (runs E ls s1) as [[s2 t2]|] eqn:R2; [|discriminate]. injection R as <- <-.
    rewrite app_assoc. eapply IH; [exact R2|intros J; apply N; right; exact J| |].
    + eapply effs_inv; [apply (fire_effs E _ _ _ _ F)|exact I].
    + eapply fire_met; [exact F| |exact I|exact M]. intros ->. apply N. left. reflexivity.
Qed.

Lemma start_met : met [] (start E).
Proof. split; cbn; try contradiction; intros; discriminate. Qed.

(** * How the tasks ended *)
Record results (tr : list out) (s : st) : Prop := {
  r_api : forall r, s_api E s = Some r -> In (XApiEnd E r) tr \/ panicked E tr;
  r_msg : forall r, s_msg E s = MEnd E r -> In (XMsgEnd E r) tr \/ panicked E tr;
  r_cli : forall r, s_cli E s = Some r -> In (XCliEnd E r) tr \/ panicked E tr;
  r_api' : forall r, In (XApiEnd E r) tr -> s_api E s = Some r \/ panicked E tr;
  r_msg' : forall r, In (XMsgEnd E r) tr -> s_msg E s = MEnd E r \/ panicked E tr;
  r_cli' : forall r, In (XCliEnd E r) tr -> s_cli E s = Some r \/ panicked E tr
}.

Lemma eff_results tr s t s' : eff E s t s' -> tasks_ok E s -> results tr s -> results (tr ++ t) s'.
Proof.
  intros F K [A M C A' M' C'].
  assert (PA : panicked E tr -> panicked E (tr ++ t)) by (intros P; apply in_app_iff; auto).
  assert (PT : panicked E t -> panicked E (tr ++ t)) by (intros P; apply in_app_iff; auto).
  split; intros r0; rewrite in_app_iff.
  - intros Q. destruct F; cbn in Q.
    all: try solve [destruct (A _ Q); auto].
    all: try solve [injection Q as <-; left; right; cbn; auto].
    all: right; apply PT; left; reflexivity.
  - intros Q. destruct F; cbn in Q.
    all: try solve [destruct (M _ Q); auto].
    all: try solve [injection Q as <-; left; right; cbn; auto].
    all: try discriminate Q.
    all: try solve [repeat match goal with H : _ \/ _ |- _ => destruct H end; subst; discriminate].
    all: right; apply PT; left; reflexivity.
  - intros Q. destruct F; cbn in Q.
    all: try solve [destruct (C _ Q); auto].
    all: try solve [injection Q as <-; left; right; cbn; auto].
    all: right; apply PT; left; reflexivity.
  - intros [J|J].
    + destruct (A' _ J) as [Q|Q]; [|auto]. destruct F; cbn; auto.
      all: try solve [unfold api_up in *; rewrite Q in *; discriminate].
      all: right; apply PT; left; reflexivity.
    + destruct F; cbn in J; repeat destruct J as [J|J]; try discriminate J; try contradiction.
      all: injection J as <-; auto.
  - intros [J|J].
    + destruct (M' _ J) as [Q|Q]; [|auto]. destruct F; cbn; auto.
      all: try solve [unfold msg_up in *; rewrite Q in *; discriminate].
      all: try solve [repeat match goal with H : _ \/ _ |- _ => destruct H end; congruence].
      all: right; apply PT; left; reflexivity.
    + destruct F; cbn in J; repeat destruct J as [J|J]; try discriminate J; try contradiction.
      all: injection J as <-; auto.
  - intros [J|J].
    + destruct (C' _ J) as [Q|Q]; [|auto]. destruct F; cbn; auto; try congruence.
      all: right; apply PT; left; reflexivity.
    + destruct F; cbn in J; repeat destruct J as [J|J]; try discriminate J; try contradiction.
      all: injection J as <-; auto.
Qed.

Lemma effs_results s t s' : effs E s t s' -> forall tr, inv E tr s -> results tr s -> results (tr ++ t) s'.
Proof.
  induction 1 as [|s t s1 t2 s2 F _ IH]; intros tr I Q; [rewrite app_nil_r; exact Q|].
  rewrite app_assoc. apply IH; [eapply eff_inv; eauto|]. eapply eff_results; eauto. apply I.
Qed.

Lemma start_results : results [] (start E).
Proof. split; cbn; try contradiction; intros; discriminate. Qed.

Lemma runs_results ls : forall tr (s s' : st) t, runs E ls s = Some (s', t) -> inv E tr s -> results tr s -> results (tr ++ t) s'.
Proof.
  induction ls as [|l ls IH]; intros tr s s' t R I M; cbn in R.
  - injection R as <- <-. rewrite app_nil_r. exact M.
  - destruct (fire E l s) as [[s1 t1]|] eqn:F; [|discriminate].
    destruct (runs E ls s1) as [[s2 t2]|] eqn:R2; [|discriminate]. injection R as <- <-.
    rewrite app_assoc. eapply IH; [exact R2| |].
    + eapply effs_inv; [apply (fire_effs E _ _ _ _ F)|exact I].
    + eapply effs_results; [apply (fire_effs E _ _ _ _ F)|exact I|exact M].
Qed.

(** The steps that report the end. *)
Definition reports (o : out) : Prop :=
  match o with XOver _ _ _ | XEmit _ (EShutdown _ _) => True | _ => False end.

Lemma fire_reports l (s s' : st) t o : fire E l s = Some (s', t) -> In o t -> reports o ->
  t = [o] /\ (o = XOver E false (Some XPanic) \/ exists ra rm rc, s_api E s = Some ra /\ s_msg E s = MEnd E rm /\ s_cli E s = Some rc /\
    ((exists b, o = XOver E b (first_err rm ra rc)) \/ o = XEmit E (EShutdown E (first_err rc rm ra)))).
Proof.
  intros F. destruct l; cbn [fire] in F; open F.
  all: injection F as <- <-; cbn.
  all: intros J; repeat destruct J as [J|J]; try contradiction; subst o; cbn; try contradiction.
  all: intros _; split; [reflexivity|].
  all: try solve [left; reflexivity].
  all: right; do 3 eexists; repeat split; try reflexivity; eauto.
Qed.

Lemma runs_at (P : out -> Prop) :
  (forall l s s' t o, fire E l s = Some (s', t) -> In o t -> P o -> t = [o]) ->
  forall ls s s' t, runs E ls s = Some (s', t) -> forall t1 o t2, t = t1 ++ o :: t2 -> P o ->
  exists ls1 l s1 s2, runs E ls1 s = Some (s1, t1) /\ fire E l s1 = Some (s2, [o]).
Proof.
  intros H. induction ls as [|l ls IH]; intros s s' t R t1 o t2 Q Z; cbn in R.
  - injection R as <- <-. destruct t1; discriminate.
  - destruct (fire E l s) as [[s1 u1]|] eqn:F; [|discriminate].
    destruct (runs E ls s1) as [[s2 u2]|] eqn:R2; [|discriminate]. injection R as <- <-.
    destruct (app_eq_app _ _ _ _ Q) as (l0&[[Q1 Q2]|[Q1 Q2]]).
    + destruct l0 as [|x l0].
      * cbn in Q2. rewrite app_nil_r in Q1. subst u1. destruct (IH _ _ _ R2 [] o t2 (eq_sym Q2) Z) as (ls1&l1&v1&v2&B1&B2).
        exists (l :: ls1), l1, v1, v2. cbn. rewrite F, B1, app_nil_r. auto.
      * injection Q2 as <- Q2. assert (u1 = [o]) by (eapply H; [exact F|rewrite Q1; apply in_elt|exact Z]).
        subst u1. destruct t1 as [|y t1]; [|destruct t1; discriminate].
        exists [], l, s, s1. cbn in *. rewrite F, H0. auto.
    + subst t1. destruct (IH _ _ _ R2 l0 o t2 Q2 Z) as (ls1&l1&v1&v2&B1&B2).
      exists (l :: ls1), l1, v1, v2. cbn. rewrite F, B1. auto.
Qed.

Lemma in_dec_panic t : panicked E t \/ ~ panicked E t.
Proof.
  unfold panicked. induction t as [|o t [IH|IH]]; cbn; [auto|auto|].
  destruct o; try (right; intros [K|K]; [discriminate K|contradiction]).
  destruct shutdowned; [right; intros [K|K]; [discriminate K|contradiction]|].
  destruct r as [[]|]; try (right; intros [K|K]; [discriminate K|contradiction]). auto.
Qed.

Lemma report_at ls s t : runs E ls (start E) = Some (s, t) -> forall t1 o t2, t = t1 ++ o :: t2 -> reports o ->
  o = XOver E false (Some XPanic) \/ panicked E t1 \/ exists ra rm rc,
    (forall r, In (XApiEnd E r) t1 <-> r = ra) /\ (forall r, In (XMsgEnd E r) t1 <-> r = rm) /\
    (forall r, In (XCliEnd E r) t1 <-> r = rc) /\
    ((exists b, o = XOver E b (first_err rm ra rc)) \/ o = XEmit E (EShutdown E (first_err rc rm ra))).
Proof.
  intros R t1 o t2 Q Z.
  destruct (runs_at reports (fun l s s' t o F J P => proj1 (fire_reports l s s' t o F J P)) ls _ _ _ R t1 o t2 Q Z)
    as (ls1&l&s1&s2&R1&F).
  destruct (fire_reports _ _ _ _ o F (or_introl eq_refl) Z) as (_&[->|(ra&rm&rc&A&M&C&O)]); [auto|].
  pose proof (runs_results ls1 [] _ _ _ R1 (start_inv E) start_results) as [X1 X2 X3 Y1 Y2 Y3]. cbn in *.
  destruct (X1 _ A) as [A1|P]; [|auto]. destruct (X2 _ M) as [M1|P]; [|auto]. destruct (X3 _ C) as [C1|P]; [|auto].
  destruct (in_dec_panic t1) as [P|NP]; [auto|].
  right. right. exists ra, rm, rc. repeat split; auto.
  all: intros; subst; auto.
  - destruct (Y1 _ H); [congruence|contradiction].
  - destruct (Y2 _ H); [congruence|contradiction].
  - destruct (Y3 _ H); [congruence|contradiction].
Qed.
End Named.
