(** What the trace of a consumer says about its state. *)
From Coq Require Import List NArith Bool Lia Arith.
From Verif Require Import Bytes WireModel FrameModel.
From Verif Require Import ConsumerModel ConsumerProofs ConsumerInv.
Import ListNotations.

Section Trace.
Variable E : cenv.
Notation st := (st E).
Notation out := (out E).
Notation acts := (s_acts E).

(** * How an activity moves *)
Inductive moved (s : st) (t : list out) (a : nat) : kind E -> stage E -> kind E -> stage E -> Prop :=
| V_seq k : (exists r x, k = KReq E r x \/ k = KBeacon E r x) -> t = [] -> moved s t a k (Init E) k (WSeq E)
| V_stop : t = [] -> moved s t a (KShutdown E) (Init E) (KShutdown E) (WStop E)
| V_uuid k n : t = [] -> moved s t a k (GSeq E n) k (WUuid E n)
| V_req k sg k' n p : t = [] -> reqs E k sg k' n p -> moved s t a k sg k' (WResp E n)
| V_match k n m : In (XMatch E a n m) t -> pfind n (s_pend E s) = Some a ->
  moved s t a k (WResp E n) k (GResp E n m)
| V_number k : t = [XSeqNo E a (next_seq (s_seq E s))] ->
  moved s t a k (WSeq E) k (GSeq E (next_seq (s_seq E s)))
| V_tell k n : t = [] -> moved s t a k (WUuid E n) k (GUuid E n (s_uuid E s))
| V_stopped k r : t = [XOver E true r] -> moved s t a k (WStop E) k (GStop E).

Lemma pend_sender (s : st) n a : pfind n (s_pend E s) = Some a -> In (SReq n) (senders E a s).
Proof.
  intros F. unfold senders. rewrite !in_app_iff. right. left.
  destruct (pdel_same n _ _ F) as (l1&l2&->&_). apply in_elt.
Qed.

Lemma eff_act (s s' : st) t : eff E s t s' -> ids_ok E s -> senders_ok E s -> forall b k' sg',
  act E b (acts s') = Some (k', sg') ->
  act E b (acts s) = Some (k', sg')
  \/ (b = s_next E s /\ sg' = Init E /\ s_next E s' = S (s_next E s) /\
      (In (XCall E b k') t /\ user_kind E k' = true \/ In (XSpawn E b) t /\ k' = KAuth0 E))
  \/ exists k sg, act E b (acts s) = Some (k, sg) /\ moved s t b k sg k' sg'.
Proof.
  intros F I S b k2 sg2. destruct F; cbn; auto.
  all: rewrite ?act_put_any; try (rewrite act_del_any by apply I).
  all: match goal with |- context [Nat.eqb ?x ?y] => destruct (Nat.eqb x y) eqn:B; [apply Nat.eqb_eq in B; subst|auto] end.
  all: try discriminate.
  all: try match goal with H : act E ?x (acts ?z) = Some _ |- context [act E ?x (acts ?z)] => rewrite H end.
  all: intros [= <- <-].
  all: try solve [right; right; do 2 eexists; split; [reflexivity|econstructor; solve [eassumption|reflexivity]]].
  - right. left. auto 10.
  - assert (n' = n).
    { pose proof (sender_stage E s b (SReq n) k (WResp E n') S (pend_sender s n b H1) H2) as Q. cbn in Q. congruence. }
    subst n'. right. right. do 2 eexists. split; [reflexivity|constructor; [left; reflexivity|assumption]].
  - assert (n' = n).
    { pose proof (sender_stage E s b (SReq n) k (WResp E n') S (pend_sender s n b H1) H2) as Q. cbn in Q. congruence. }
    subst n'. right. right. do 2 eexists. split; [reflexivity|constructor; [left; reflexivity|assumption]].
  - right. left. auto 10.
Qed.

Definition ended (a : nat) (o : out) : Prop :=
  match o with XRet _ b _ | XAuthEnd _ b _ | XDrop _ b => a = b | _ => False end.

Lemma eff_act_end (s s' : st) t : eff E s t s' -> ids_ok E s -> forall b,
  act E b (acts s') = None -> act E b (acts s) <> None -> exists o, t = [o] /\ ended b o.
Proof.
  intros F I b. destruct F; cbn; try congruence.
  all: rewrite ?act_put_any; try (rewrite act_del_any by apply I).
  all: match goal with |- context [Nat.eqb ?x ?y] => destruct (Nat.eqb x y) eqn:B; [apply Nat.eqb_eq in B; subst|congruence] end.
  all: try discriminate.
  all: try solve [destruct (act E b (acts s)); [discriminate|congruence]].
  all: intros _ _; eexists; split; reflexivity.
Qed.

Lemma eff_ended (s s' : st) t : eff E s t s' -> ids_ok E s -> forall b o, In o t -> ended b o ->
  act E b (acts s) <> None /\ act E b (acts s') = None.
Proof.
  intros F I b o J D. destruct F; cbn in J.
  all: repeat match type of J with _ \/ _ => destruct J as [J|J] | False => destruct J end; subst o; cbn in D; try contradiction; try subst b.
  all: try (cbn; split; [congruence|apply act_del_same; apply I]).
Qed.

Lemma next_mono (s s' : st) t : eff E s t s' -> (s_next E s <= s_next E s')%nat.
Proof. destruct 1; cbn; lia. Qed.

(** * Lives of activities *)
Definition about (a : nat) (o : out) : Prop :=
  match o with
  | XCall _ b _ | XSpawn _ b | XRet _ b _ | XAuthEnd _ b _ | XDrop _ b | XSeqNo _ b _
  | XSend _ b _ _ _ | XMatch _ b _ _ => a = b
  | _ => False
  end.

Record life (tr : list out) (s : st) : Prop := {
  l_lt : forall a o, In o tr -> about a o -> (a < s_next E s)%nat;
  l_end : forall a o, In o tr -> ended a o -> act E a (acts s) = None;
  l_call : forall a k sg, act E a (acts s) = Some (k, sg) -> user_kind E k = true -> In (XCall E a k) tr;
  l_spawn : forall a k sg, act E a (acts s) = Some (k, sg) -> user_kind E k = false -> In (XSpawn E a) tr
}.

Lemma sender_lt (s : st) a x : ids_ok E s -> senders_ok E s -> In x (senders E a s) -> (a < s_next E s)%nat.
Proof.
  intros I S X. destruct (act E a (acts s)) as [y|] eqn:A; [eapply act_lt; eauto|].
  specialize (S a). rewrite A in S. destruct S as [S|[L _]]; [rewrite S in X; destruct X|exact L].
Qed.
Lemma req_sender (s : st) n p a : In (QRequest E n p a) (s_q E s) -> In (SReq n) (senders E a s).
Proof.
  intros Q. unfold senders. rewrite in_app_iff. left. apply in_flat_map. eexists. split; [exact Q|].
  cbn. rewrite one_same. left. reflexivity.
Qed.
Lemma head_req (s : st) n p a q : s_q E s = QRequest E n p a :: q -> In (SReq n) (senders E a s).
Proof. intros Q. eapply req_sender. rewrite Q. left. reflexivity. Qed.

Lemma eff_about (s s' : st) t : eff E s t s' -> ids_ok E s -> senders_ok E s -> forall a o, In o t -> about a o ->
  (a < s_next E s')%nat.
Proof.
  intros F I S a1 o J B. pose proof (next_mono _ _ _ F) as N. destruct F; cbn in J.
  all: repeat match type of J with _ \/ _ => destruct J as [J|J] | False => destruct J end; subst o; cbn in B; try contradiction; try subst a1.
  all: try (cbn; lia).
  all: try match goal with H : act E ?x (acts ?z) = Some _ |- _ => pose proof (act_lt E z x _ I H); cbn in *; lia end.
  all: try match goal with H : s_q E ?x = QRequest E _ _ ?z :: _ |- _ => pose proof (sender_lt x z _ I S (head_req _ _ _ _ _ H)); cbn in *; lia end.
Qed.

Lemma moved_kind s t a k sg k' sg' : moved s t a k sg k' sg' -> user_kind E k' = user_kind E k /\ (user_kind E k = true -> k' = k).
Proof. destruct 1; auto. destruct H0; cbn; auto. split; [reflexivity|discriminate]. Qed.

Lemma eff_life tr s t s' : eff E s t s' -> ids_ok E s -> senders_ok E s -> life tr s -> life (tr ++ t) s'.
Proof.
  intros F I S [L1 L2 L3 L4]. pose proof (eff_act _ _ _ F I S) as A. split.
  - intros a o J B. apply in_app_iff in J. destruct J as [J|J].
    + pose proof (next_mono _ _ _ F). specialize (L1 a o J B). lia.
    + eapply eff_about; eauto.
  - intros a o J D. apply in_app_iff in J. destruct J as [J|J].
    + specialize (L2 a o J D). destruct (act E a (acts s')) as [[k sg]|] eqn:Q; [exfalso|reflexivity].
      destruct (A a k sg Q) as [X|[(X&_)|(?&?&X&_)]]; try congruence.
      subst a. assert (s_next E s < s_next E s)%nat; [|lia]. apply (L1 (s_next E s) o J).
      destruct o; cbn in *; try contradiction; auto.
    + eapply eff_ended; eauto.
  - intros a k sg Q U. apply in_app_iff. destruct (A a k sg Q) as [X|[(X&_&_&[[X1 _]|[_ X1]])|(k0&sg0&X&V)]]; eauto.
    + subst k. discriminate.
    + destruct (moved_kind _ _ _ _ _ _ _ V) as [V1 V2]. rewrite U in V1. left.
      specialize (V2 (eq_sym V1)). subst. eauto.
  - intros a k sg Q U. apply in_app_iff. destruct (A a k sg Q) as [X|[(X&_&_&[[_ X1]|[X1 _]])|(k0&sg0&X&V)]]; eauto.
    + congruence.
    + destruct (moved_kind _ _ _ _ _ _ _ V) as [V1 V2]. rewrite U in V1. left. eauto.
Qed.

(** * Stages *)
Definition is_call (k : kind E) : Prop := exists r x, k = KReq E r x \/ k = KBeacon E r x.
Definition stage_ok (k : kind E) (sg : stage E) : Prop :=
  match sg with
  | Init _ => match k with KAuth1 _ _ => False | _ => True end
  | WSeq _ | GSeq _ _ | WUuid _ _ | GUuid _ _ _ => is_call k
  | WResp _ n | GResp _ n _ =>
    match k with KAuth0 _ => n = 0%N | KAuth1 _ _ => n = 1%N | KShutdown _ => False | _ => True end
  | WStop _ | GStop _ => k = KShutdown E
  end.
Definition number_of (sg : stage E) : option N :=
  match sg with GSeq _ n | WUuid _ n | GUuid _ n _ | WResp _ n | GResp _ n _ => Some n | _ => None end.

(** the uuid [u] was given by the producer in a handshake *)
Definition named (u : N) (tr : list out) : Prop :=
  exists a t, In (XAuthEnd E a (inl t)) tr /\ x_uuid E t = Some u.

Record staged (tr : list out) (s : st) : Prop := {
  g_stage : forall a k sg, act E a (acts s) = Some (k, sg) -> stage_ok k sg;
  g_number : forall a k sg n, act E a (acts s) = Some (k, sg) -> user_kind E k = true -> number_of sg = Some n ->
    In (XSeqNo E a n) tr;
  g_match : forall a k n m, act E a (acts s) = Some (k, GResp E n m) -> In (XMatch E a n m) tr;
  g_self : forall a t sg, act E a (acts s) = Some (KAuth1 E t, sg) ->
    exists m, In (XMatch E a 0 m) tr /\ x_self E m = Some t;
  g_uuid : forall a k n u, act E a (acts s) = Some (k, GUuid E n (Some u)) -> named u tr;
  g_known : forall u, s_uuid E s = Some u -> named u tr;
  g_auth : forall r, In (ASet r) (s_qauth E s) -> exists a, In (XAuthEnd E a r) tr;
  g_stop : forall a k, act E a (acts s) = Some (k, GStop E) -> exists r, In (XOver E true r) tr
}.

Lemma named_app u tr t : named u tr -> named u (tr ++ t).
Proof. intros (a&x&H&Q). exists a, x. split; [apply in_app_iff; auto|exact Q]. Qed.

Lemma eff_uuid (s s' : st) t : eff E s t s' -> forall u, s_uuid E s' = Some u ->
  s_uuid E s = Some u \/ exists x, In (ASet (inl x)) (s_qauth E s) /\ x_uuid E x = Some u.
Proof.
  intros F v. destruct F; cbn; auto.
  - destruct H1; subst; [auto|discriminate].
  - intros [= <-]. right. exists t. rewrite H0. split; [left; reflexivity|assumption].
Qed.

Lemma eff_qauth (s s' : st) t : eff E s t s' -> forall r, In (ASet r) (s_qauth E s') ->
  In (ASet r) (s_qauth E s) \/ exists a, In (XAuthEnd E a r) t.
Proof.
  intros F r0. destruct F; cbn; auto; try contradiction.
  - rewrite in_app_iff. cbn. intros [Q|[[= <-]|[]]]; eauto.
  - rewrite in_app_iff. cbn. intros [Q|[Q|[]]]; [auto|discriminate].
  - rewrite H0. cbn. auto.
  - rewrite H0. cbn. auto.
Qed.

Lemma eff_staged tr s t s' : eff E s t s' -> ids_ok E s -> senders_ok E s -> staged tr s -> staged (tr ++ t) s'.
Proof.
  intros F I S [G1 G2 G3 G4 G5 G6 G7 G8]. pose proof (eff_act _ _ _ F I S) as A. split.
  - intros a k sg Q. destruct (A a k sg Q) as [X|[(X&->&_&[[_ X1]|[_ X1]])|(k0&sg0&X&V)]]; eauto.
    + destruct k; try discriminate; exact Logic.I.
    + subst k. exact Logic.I.
    + specialize (G1 _ _ _ X). destruct V; cbn in *; auto.
      destruct H0; cbn; auto.
  - intros a k sg n Q U N. apply in_app_iff. destruct (A a k sg Q) as [X|[(X&->&_)|(k0&sg0&X&V)]]; eauto.
    + discriminate.
    + destruct (moved_kind _ _ _ _ _ _ _ V) as [V1 V2]. rewrite U in V1. symmetry in V1. specialize (V2 V1). subst k0.
      destruct V; cbn in *; try discriminate; try (injection N as <-); eauto.
      * destruct H0; try discriminate; left; eapply G2; eauto.
      * subst. right. left. reflexivity.
  - intros a k n m Q. apply in_app_iff. destruct (A a k _ Q) as [X|[(X&?&_)|(k0&sg0&X&V)]]; eauto; [discriminate|].
    inversion V; subst; auto.
  - intros a u sg Q. assert (D : (exists m, In (XMatch E a 0 m) tr /\ x_self E m = Some u) ->
      exists m, In (XMatch E a 0 m) (tr ++ t) /\ x_self E m = Some u).
    { intros (m&H1&H2). exists m. split; [apply in_app_iff; auto|exact H2]. }
    destruct (A a _ sg Q) as [X|[(X&_&_&[[_ ?]|[_ ?]])|(k0&sg0&X&V)]]; try discriminate; eauto.
    inversion V; subst; eauto.
    match goal with H : reqs _ _ _ _ _ _ |- _ => inversion H; subst end.
    apply D. exists m. pose proof (G1 _ _ _ X) as Z. cbn in Z. subst. eauto.
  - intros a k n u Q. destruct (A a k _ Q) as [X|[(X&?&_)|(k0&sg0&X&V)]]; [apply named_app; eauto|discriminate|].
    apply named_app. inversion V; subst; eauto.
  - intros u Q. destruct (eff_uuid _ _ _ F u Q) as [X|(x&X1&X2)]; apply named_app; eauto.
    destruct (G7 (inl x) X1) as [a Y]. exists a, x. auto.
  - intros r Q. destruct (eff_qauth _ _ _ F _ Q) as [X|[a X]].
    + destruct (G7 r X) as [a Y]. exists a. apply in_app_iff. auto.
    + exists a. apply in_app_iff. auto.
  - intros a k Q. destruct (A a k _ Q) as [X|[(X&?&_)|(k0&sg0&X&V)]]; [|discriminate|].
    + destruct (G8 _ _ X) as [r Y]. exists r. apply in_app_iff. auto.
    + inversion V; subst. exists r. apply in_app_iff. right. left. reflexivity.
Qed.

(** * Requests *)
Definition paid (a : nat) (n : N) (p : payload E) (tr : list out) : Prop :=
  match p with
  | PSelf _ => n = 0%N /\ In (XSpawn E a) tr
  | PHash _ => n = 1%N /\ In (XSpawn E a) tr /\ exists m t, In (XMatch E a 0 m) tr /\ x_self E m = Some t
  | PUser _ x u => In (XSeqNo E a n) tr
      /\ (exists r, In (XCall E a (KReq E r x)) tr \/ In (XCall E a (KBeacon E r x)) tr)
      /\ (forall v, u = Some v -> named v tr)
  end.

Lemma paid_app a n p tr t : paid a n p tr -> paid a n p (tr ++ t).
Proof.
  unfold paid. destruct p.
  - rewrite in_app_iff. tauto.
  - rewrite in_app_iff. intros (?&?&m&x&?&?). repeat split; auto. exists m, x. rewrite in_app_iff. auto.
  - rewrite in_app_iff. intros (?&(r&Hr)&Hv). repeat split; [auto| |intros; apply named_app; auto].
    exists r. rewrite !in_app_iff. tauto.
Qed.

Record asked (tr : list out) (s : st) : Prop := {
  q_paid : forall n p a, In (QRequest E n p a) (s_q E s) -> paid a n p tr;
  q_sent : forall n a, In (n, a) (s_pend E s) -> exists p, In (XSend E a n p true) tr;
  q_stop : forall a, In SStop (senders E a s) -> In (XCall E a (KShutdown E)) tr
}.

Lemma in_pdel n p x : In x (pdel n p) -> In x p.
Proof. induction p as [|[k c] p IH]; cbn; [auto|]. destruct (N.eqb n k); cbn; tauto. Qed.

Lemma eff_q (s s' : st) t : eff E s t s' -> forall c, In c (s_q E s') ->
  In c (s_q E s) \/
  match c with
  | QRequest _ n p a => exists k sg k', act E a (acts s) = Some (k, sg) /\ reqs E k sg k' n p
  | QShutdown _ a => act E a (acts s) = Some (KShutdown E, Init E)
  | QAccept _ n m => exists h, h_seq h = n /\ s_msg E s' = MWait E h m None /\ t = [XIn E h m]
  | QUuid _ a => exists k n, act E a (acts s) = Some (k, GSeq E n)
  | QSeq _ a => exists k, act E a (acts s) = Some (k, Init E)
  end.
Proof.
  intros F c0. destruct F; cbn; auto; try contradiction.
  all: try (rewrite in_app_iff; cbn; intros [Q|[<-|[]]]; eauto 10).
  all: try (rewrite H0; cbn; auto).
Qed.

Lemma eff_pend (s s' : st) t : eff E s t s' -> forall x, In x (s_pend E s') ->
  In x (s_pend E s) \/ exists p, t = [XSend E (snd x) (fst x) p true] /\ In (QRequest E (fst x) p (snd x)) (s_q E s).
Proof.
  intros F x0. destruct F; cbn; auto; try contradiction.
  - intros [<-|Q]; [|auto]. right. exists p. split; [reflexivity|]. rewrite H0. left. reflexivity.
  - intros Q. left. eapply in_pdel; eauto.
Qed.

Lemma in_stop (s : st) a : In SStop (senders E a s) <->
  In (QShutdown E a) (s_q E s) \/ In a (s_qshut E s) \/ (s_shut E s = ShGot a /\ s_over E s = false).
Proof.
  unfold senders. rewrite !in_app_iff, !in_flat_map. split.
  - intros [(c&Q&J)|[(x&Q&J)|[(x&Q&J)|[(x&Q&J)|J]]]].
    + left. destruct c; cbn in J; unfold one in J; try destruct (Nat.eqb a _) eqn:B; cbn in J; try contradiction.
      all: destruct J as [J|[]]; try discriminate. apply Nat.eqb_eq in B. subst. exact Q.
    + exfalso. destruct x. unfold p_snd, one in J. cbn in J. destruct (Nat.eqb a n0); [destruct J as [J|[]]; discriminate|destruct J].
    + exfalso. destruct x; cbn in J; unfold one in J; [destruct J|]. destruct (Nat.eqb a a0); [destruct J as [J|[]]; discriminate|destruct J].
    + right. left. unfold h_snd, one in J. destruct (Nat.eqb a x) eqn:B; [|destruct J]. apply Nat.eqb_eq in B. subst. exact Q.
    + right. right. unfold g_snd in J. destruct (s_shut E s); try destruct J. destruct (s_over E s); [destruct J|].
      unfold one in J. destruct (Nat.eqb a a0) eqn:B; [|destruct J]. apply Nat.eqb_eq in B. subst. auto.
  - intros [Q|[Q|[Q O]]].
    + left. eexists. split; [exact Q|]. cbn. rewrite one_same. left. reflexivity.
    + right. right. right. left. eexists. split; [exact Q|]. unfold h_snd. rewrite one_same. left. reflexivity.
    + right. right. right. right. unfold g_snd. rewrite Q, O, one_same. left. reflexivity.
Qed.

Lemma eff_stop_sender (s s' : st) t a : eff E s t s' -> In SStop (senders E a s') -> In SStop (senders E a s)
  \/ act E a (acts s) = Some (KShutdown E, Init E).
Proof.
  intros F. rewrite !in_stop. destruct F; cbn; auto; try tauto.
  all: try (rewrite in_app_iff; cbn).
  all: try (rewrite H0; cbn).
  all: try tauto.
  all: try (intros [[Q|[Q|[]]]|Q]; [auto|try discriminate|auto]).
  - injection Q as ->. auto.
  - intros [Q|[[Q|[->|[]]]|[Q _]]]; auto; discriminate.
  - intros [Q|[[]|[Q O]]]; [auto|]. injection Q as ->. auto.
  - intros Q; repeat match goal with H : _ \/ _ |- _ => destruct H | H : _ /\ _ |- _ => destruct H end; try contradiction; try discriminate; auto.
  - intros Q; repeat match goal with H : _ \/ _ |- _ => destruct H | H : _ /\ _ |- _ => destruct H end; try contradiction; try discriminate; auto.
Qed.

Lemma eff_asked tr s t s' : eff E s t s' -> ids_ok E s -> senders_ok E s -> life tr s -> staged tr s ->
  asked tr s -> asked (tr ++ t) s'.
Proof.
  intros F I S L G [Q1 Q2 Q3]. split.
  - intros n p a Q. destruct (eff_q _ _ _ F _ Q) as [X|(k&sg&k'&A&R)]; apply paid_app; [eauto|].
    pose proof (g_stage _ _ G _ _ _ A) as ST.
    destruct R; cbn in *.
    + split; [reflexivity|]. eapply (l_spawn _ _ L); eauto.
    + repeat split.
      * eapply (g_number _ _ G); eauto; reflexivity.
      * exists r. left. eapply (l_call _ _ L); eauto.
      * intros v ->. eapply (g_uuid _ _ G); eauto.
    + repeat split.
      * eapply (g_number _ _ G); eauto; reflexivity.
      * exists b. right. eapply (l_call _ _ L); eauto.
      * intros v ->. eapply (g_uuid _ _ G); eauto.
    + split; [reflexivity|]. split; [eapply (l_spawn _ _ L); eauto|]. subst n.
      exists m, t0. split; [|assumption]. eapply (g_match _ _ G); eauto.
  - intros n a Q. destruct (eff_pend _ _ _ F _ Q) as [X|(p&->&X)].
    + destruct (Q2 _ _ X) as [p Y]. exists p. apply in_app_iff. auto.
    + exists p. apply in_app_iff. right. left. reflexivity.
  - intros a Q. apply in_app_iff. left. destruct (eff_stop_sender _ _ _ _ F Q) as [X|X]; [auto|].
    eapply (l_call _ _ L); eauto.
Qed.

End Trace.
