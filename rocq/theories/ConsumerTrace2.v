(** Trace invariants of the consumer, continued. *)
From Coq Require Import List NArith Bool Lia Arith.
From Verif Require Import Bytes WireModel FrameModel.
From Verif Require Import ConsumerModel ConsumerProofs ConsumerInv ConsumerTrace.
Import ListNotations.

Section Trace.
Variable E : cenv.
Notation st := (st E).
Notation out := (out E).
Notation acts := (s_acts E).
Notation cnt := (count_occ sender_dec).

Lemma single (s : st) a x y : senders_ok E s -> (cnt (senders E a s) x + cnt (senders E a s) y <= 1 \/ x = y)%nat.
Proof.
  intros S. destruct (at_most E s a S) as [Q|[z Q]]; rewrite Q; cbn; [lia|].
  destruct (sender_dec z x), (sender_dec z y); subst; auto; lia.
Qed.
Lemma single1 (s : st) a x : senders_ok E s -> (cnt (senders E a s) x <= 1)%nat.
Proof. intros S. destruct (at_most E s a S) as [Q|[z Q]]; rewrite Q; cbn; [lia|]. destruct (sender_dec z x); lia. Qed.

Lemma head_only (s : st) n p a q n' p' : senders_ok E s -> s_q E s = QRequest E n p a :: q ->
  ~ In (QRequest E n' p' a) q.
Proof.
  intros S Q J. destruct (at_most E s a S) as [Z|[z Z]]; unfold senders in Z; rewrite Q in Z; cbn in Z; rewrite one_same in Z; cbn in Z; [discriminate|].
  injection Z as _ Z. apply app_eq_nil in Z. destruct Z as [Z _].
  assert (B : In (SReq n') (flat_map (q_snd E a) q)).
  { apply in_flat_map. eexists. split; [exact J|]. cbn. rewrite one_same. left. reflexivity. }
  rewrite Z in B. destruct B.
Qed.
Lemma pend_not_q (s : st) n a n' p' : senders_ok E s -> In (n, a) (s_pend E s) -> ~ In (QRequest E n' p' a) (s_q E s).
Proof.
  intros S P J.
  assert (A : In (SReq n') (flat_map (q_snd E a) (s_q E s))).
  { apply in_flat_map. eexists. split; [exact J|]. cbn. rewrite one_same. left. reflexivity. }
  assert (B : In (SReq n) (flat_map (p_snd a) (s_pend E s))).
  { apply in_flat_map. eexists. split; [exact P|]. unfold p_snd. cbn. rewrite one_same. left. reflexivity. }
  destruct (at_most E s a S) as [Z|[z Z]]; unfold senders in Z; destruct (flat_map (q_snd E a) (s_q E s)) as [|u l]; try destruct A as [].
  all: cbn in Z; try discriminate.
  all: injection Z as _ Z; apply app_eq_nil in Z; destruct Z as [_ Z]; apply app_eq_nil in Z; destruct Z as [Z _]; rewrite Z in B; destruct B.
Qed.
Lemma pend_once (s : st) n a : senders_ok E s -> pfind n (s_pend E s) = Some a -> ~ In (n, a) (pdel n (s_pend E s)).
Proof.
  intros S P J. pose proof (single1 s a (SReq n) S) as C. unfold senders in C. rewrite !count_occ_app in C.
  rewrite (pdel_cnt n _ a a (SReq n) P), one_same in C. cbn in C. destruct (sender_dec (SReq n) (SReq n)); [|congruence].
  assert (B : In (SReq n) (flat_map (p_snd a) (pdel n (s_pend E s)))).
  { apply in_flat_map. eexists. split; [exact J|]. unfold p_snd. cbn. rewrite one_same. left. reflexivity. }
  apply (count_occ_In sender_dec) in B. lia.
Qed.
Lemma pfind_in n p a : pfind n p = Some a -> In (n, a) p.
Proof.
  induction p as [|[k c] p IH]; cbn; [discriminate|]. destruct (N.eqb n k) eqn:Q; intros F; [|auto].
  injection F as ->. apply N.eqb_eq in Q. subst. auto.
Qed.

(** * Nothing is sent or answered twice *)
Definition early (sg : stage E) : bool :=
  match sg with Init _ | WSeq _ | GSeq _ _ | WUuid _ _ | GUuid _ _ _ => true | _ => false end.
Definition unsent (a : nat) (n : N) (tr : list out) : Prop :=
  (forall p ok, ~ In (XSend E a n p ok) tr) /\ (forall m, ~ In (XMatch E a n m) tr).

Record once (tr : list out) (s : st) : Prop := {
  o_new : forall a k sg n, act E a (acts s) = Some (k, sg) -> early sg = true -> unsent a n tr;
  o_auth : forall a sg, act E a (acts s) = Some (KAuth0 E, sg) -> unsent a 1 tr;
  o_req : forall n p a, In (QRequest E n p a) (s_q E s) -> unsent a n tr;
  o_pend : forall n a m, In (n, a) (s_pend E s) -> ~ In (XMatch E a n m) tr
}.

(** what an elementary transition sends or answers *)
Lemma eff_xsend (s s' : st) t : eff E s t s' -> forall a n p ok, In (XSend E a n p ok) t ->
  api_up E s = true /\ pfind n (s_pend E s) = None /\
  exists q, s_q E s = QRequest E n p a :: q /\ (ok = true /\ s_q E s' = q /\ s_pend E s' = (n, a) :: s_pend E s /\ t = [XSend E a n p ok]
     \/ ok = false /\ s_q E s' = [] /\ s_pend E s' = []).
Proof.
  intros F a0 n0 p0 ok J. destruct F; cbn in J.
  all: repeat match type of J with _ \/ _ => destruct J as [J|J] | False => destruct J end; try discriminate.
  all: injection J as <- <- <- <-; split; [assumption|split; [assumption|]]; eexists; split; [eassumption|]; cbn; auto 10.
Qed.
Lemma eff_xmatch (s s' : st) t : eff E s t s' -> senders_ok E s -> accepts_ok E s -> forall a n m, In (XMatch E a n m) t ->
  pfind n (s_pend E s) = Some a /\ api_up E s = true /\ s_pend E s' = pdel n (s_pend E s) /\ (exists k, act E a (acts s) = Some (k, WResp E n)) /\ t = [XMatch E a n m]
  /\ (exists q, s_q E s = QAccept E n m :: q /\ s_q E s' = q)
  /\ exists h, s_msg E s = MWait E h m None /\ h_seq h = n.
Proof.
  intros F S K a0 n0 m0 J. unfold accepts_ok in K. destruct F; cbn in J.
  all: repeat match type of J with _ \/ _ => destruct J as [J|J] | False => destruct J end; try discriminate.
  all: injection J as <- <- <-.
  all: assert (n' = n) by (pose proof (sender_stage E s a (SReq n) k (WResp E n') S (pend_sender E s n a H1) H2) as Q; cbn in Q; congruence).
  all: subst n'.
  - rewrite H0, H3, H in K. cbn in K. injection K as K1 K2 _. subst m'. repeat split; eauto.
  - exfalso. rewrite H0 in K. cbn in K. destruct (s_msg E s) as [| |h x [b|]|]; try discriminate. eapply H3; reflexivity.
Qed.

Lemma unsent_app a n tr t : unsent a n tr -> (forall p ok, ~ In (XSend E a n p ok) t) -> (forall m, ~ In (XMatch E a n m) t) ->
  unsent a n (tr ++ t).
Proof. intros [U1 U2] V1 V2. split; intros; rewrite in_app_iff; intros [J|J]; [eapply U1|eapply V1|eapply U2|eapply V2]; eauto. Qed.

Lemma no_xmatch (s s' : st) t : eff E s t s' -> senders_ok E s -> accepts_ok E s -> forall a n k sg,
  act E a (acts s) = Some (k, sg) -> sg <> WResp E n -> forall m, ~ In (XMatch E a n m) t.
Proof.
  intros F S K a n k sg A W m J. destruct (eff_xmatch _ _ _ F S K _ _ _ J) as (_&_&_&(k'&Q)&_). congruence.
Qed.
Lemma no_xsend (s s' : st) t : eff E s t s' -> senders_ok E s -> forall a n k sg,
  act E a (acts s) = Some (k, sg) -> sg <> WResp E n -> forall p ok, ~ In (XSend E a n p ok) t.
Proof.
  intros F S a n k sg A W p ok J. destruct (eff_xsend _ _ _ F _ _ _ _ J) as (_&_&q&Q&_).
  pose proof (sender_stage E s a (SReq n) k sg S (head_req E s n p a q Q) A) as X. destruct sg; cbn in X; congruence.
Qed.

Lemma eff_once tr s t s' : eff E s t s' -> ids_ok E s -> senders_ok E s -> accepts_ok E s -> life E tr s -> staged E tr s ->
  once tr s -> once (tr ++ t) s'.
Proof.
  intros F I S K L G [O1 O2 O3 O4]. pose proof (eff_act E _ _ _ F I S) as A.
  assert (NEW : forall n, unsent (s_next E s) n (tr ++ t) \/ s_next E s' = s_next E s).
  { intros n. destruct (Nat.eq_dec (s_next E s') (s_next E s)); [auto|]. left.
    assert (B : forall o, In o tr -> about E (s_next E s) o -> False).
    { intros o J B. pose proof (l_lt _ _ _ L _ _ J B). lia. }
    apply unsent_app; [split|..]; intros; intros J; try (apply (B _ J); reflexivity).
    - destruct (eff_xsend _ _ _ F _ _ _ _ J) as (_&_&q&Q&_).
      pose proof (sender_lt E s _ _ I S (head_req E _ _ _ _ _ Q)). lia.
    - destruct (eff_xmatch _ _ _ F S K _ _ _ J) as (_&_&_&(k&Q)&_).
      pose proof (act_lt E s _ _ I Q). lia. }
  split.
  - intros a k sg n Q W. destruct (A a k sg Q) as [X|[(X&->&Y&_)|(k0&sg0&X&V)]].
    + apply unsent_app; [eauto| |].
      * eapply no_xsend; eauto. intros ->. discriminate.
      * eapply no_xmatch; eauto. intros ->. discriminate.
    + subst a. destruct (NEW n); [assumption|lia].
    + apply unsent_app.
      * destruct V; try discriminate; eapply O1; eauto.
      * eapply no_xsend; eauto. intros ->. inversion V; subst; discriminate.
      * eapply no_xmatch; eauto. intros ->. inversion V; subst; discriminate.
  - intros a sg Q. destruct (A a _ sg Q) as [X|[(X&->&Y&_)|(k0&sg0&X&V)]].
    + pose proof (g_stage _ _ _ G _ _ _ X) as Z. apply unsent_app; [eauto| |].
      * eapply no_xsend; eauto. intros ->. discriminate.
      * eapply no_xmatch; eauto. intros ->. discriminate.
    + subst a. destruct (NEW 1%N); [assumption|lia].
    + pose proof (g_stage _ _ _ G _ _ _ X) as Z.
      assert (k0 = KAuth0 E) by (inversion V; subst; auto; match goal with H : reqs _ _ _ _ _ _ |- _ => inversion H; subst; auto end).
      subst k0. apply unsent_app; [eauto| |].
      * eapply no_xsend; eauto. intros ->. discriminate.
      * eapply no_xmatch; eauto. intros ->. discriminate.
  - intros n p a Q. destruct (eff_q E _ _ _ F _ Q) as [X|(k&sg&k'&B&R)].
    + apply unsent_app; [eauto| |].
      * intros p0 ok J. destruct (eff_xsend _ _ _ F _ _ _ _ J) as (_&_&q&Y&[(_&Z&_)|(_&Z&_)]); rewrite Z in Q; [|destruct Q].
        eapply (head_only s _ _ _ _ _ _ S Y). exact Q.
      * intros m J. destruct (eff_xmatch _ _ _ F S K _ _ _ J) as (Y&_).
        eapply (pend_not_q s n a); eauto. apply pfind_in. exact Y.
    + assert (W : sg <> WResp E n) by (intros ->; inversion R).
      apply unsent_app; [|eapply no_xsend; eauto|eapply no_xmatch; eauto].
      destruct R; try (eapply O1; eauto; reflexivity). eapply O2; eauto.
  - intros n a m Q J. apply in_app_iff in J. destruct (eff_pend E _ _ _ F _ Q) as [X|(p&Y&X)]; cbn [fst snd] in *.
    + destruct J as [J|J]; [eapply O4; eauto|].
      destruct (eff_xmatch _ _ _ F S K _ _ _ J) as (Y&_&Z&_). rewrite Z in Q. eapply pend_once; eauto.
    + subst t. destruct J as [J|[J|[]]]; [|discriminate]. eapply (O3 _ _ _ X); eauto.
Qed.

(** * Who waits for nothing any more *)
Definition gave_up (a : nat) (x : sender) (tr : list out) : Prop :=
  In (XDrop E a) tr \/ exists n, x = SReq n /\ In (XRet E a (RErr E XTimeout)) tr.
Definition left_ok (tr : list out) (s : st) : Prop :=
  forall a x, In x (senders E a s) -> act E a (acts s) = None -> gave_up a x tr.

Ltac counts := intros; unfold senders, g_snd; cbn;
  repeat match goal with H : s_q E ?x = _ |- _ => rewrite H; clear H | H : s_qauth E ?x = _ |- _ => rewrite H; clear H
    | H : s_qshut E ?x = _ |- _ => rewrite H; clear H | H : s_shut E ?x = _ |- _ => rewrite H; clear H
    | H : s_over E ?x = _ |- _ => rewrite H; clear H end;
  cbn; rewrite ?flat_map_app, ?count_occ_app; cbn; rewrite ?app_nil_r, ?count_occ_app; cbn;
  repeat match goal with |- context [cnt (h_snd ?u ?v)] => change (h_snd u v) with (one u v SStop)
    | |- context [cnt (p_snd ?u (?v, ?w))] => change (p_snd u (v, w)) with (one u w (SReq v)) end.

Lemma eff_no_new (s s' : st) t : eff E s t s' -> tasks_ok E s -> forall a x, act E a (acts s') = None ->
  In x (senders E a s') -> In x (senders E a s).
Proof.
  intros F K a0 x0 A J. apply (count_occ_In sender_dec) in J. apply (count_occ_In sender_dec).
  enough (cnt (senders E a0 s') x0 <= cnt (senders E a0 s) x0)%nat by lia. clear J. revert x0. destruct F.
  all: try (counts; lia).
  all: try (cbn in A; rewrite act_put_any in A; destruct (Nat.eqb a a0) eqn:B;
    [apply Nat.eqb_eq in B; subst; rewrite ?H in A; discriminate|apply Nat.eqb_neq in B];
    counts; rewrite ?(one_other a0 a) by auto; cbn; lia).
  - counts. rewrite (pdel_cnt n _ a a0 x0 H1). lia.
  - assert (O : s_over E s = false) by (destruct (s_over E s) eqn:O; [destruct (k_over E s K O) as (?&?&?&?); congruence|reflexivity]).
    counts. lia.
  - counts. destruct (s_shut E s); cbn; lia.
Qed.

Lemma gave_up_app a x tr t : gave_up a x tr -> gave_up a x (tr ++ t).
Proof. intros [J|(n&X&J)]; [left|right; exists n; split; [exact X|]]; apply in_app_iff; auto. Qed.

Lemma eff_left tr s t s' : eff E s t s' -> ids_ok E s -> tasks_ok E s -> senders_ok E s -> left_ok tr s -> left_ok (tr ++ t) s'.
Proof.
  intros F I K S L a x X A. pose proof (eff_no_new _ _ _ F K a x A X) as X0.
  destruct (act E a (acts s)) as [[k sg]|] eqn:B; [|apply gave_up_app; apply L; assumption].
  assert (B' : act E a (acts s) <> None) by congruence.
  destruct (eff_act_end E _ _ _ F I a A B') as (o&T&D).
  pose proof (sender_stage E s a x k sg S X0 B) as W.
  assert (NE : has_sender E a s = false -> False).
  { intros Z. apply has_sender_iff in Z. rewrite Z in X0. destruct X0. }
  destruct F; try discriminate; injection T as T; subst o; cbn in D; subst; try (cbn in A; congruence); try contradiction.
  - left. apply in_app_iff. right. left. reflexivity.
  - rewrite H in B. injection B as -> ->.
    destruct H1; try discriminate.
    + exfalso. auto.
    + exfalso. destruct sg; discriminate.
    + right. exists n. cbn in W. split; [congruence|]. apply in_app_iff. right. left. reflexivity.
  - exfalso. rewrite H in B. injection B as -> ->. destruct H1; try discriminate.
    destruct (waiting E sg) eqn:Z; [auto|]. destruct sg; discriminate.
  - exfalso. rewrite H in B. injection B as -> ->. destruct H1; try discriminate.
    destruct (waiting E sg) eqn:Z; [auto|]. destruct sg; discriminate.
Qed.

(** * Sequence numbers *)
Fixpoint allocs (tr : list out) : N :=
  match tr with [] => 0 | XSeqNo _ _ _ :: tr => 1 + allocs tr | _ :: tr => allocs tr end.
Definition period : N := 4294967284.
Definition number (k : N) : N := (10 + k mod period)%N.
Definition seq_ok (tr : list out) (s : st) : Prop := api_up E s = true -> s_seq E s = number (allocs tr).

Lemma allocs_app tr t : allocs (tr ++ t) = (allocs tr + allocs t)%N.
Proof. induction tr as [|o tr IH]; [reflexivity|]. destruct o; cbn [allocs app]; rewrite IH; lia. Qed.
Lemma number_next k : next_seq (number k) = number (k + 1).
Proof.
  unfold number, next_seq, u32_max, period.
  pose proof (N.mod_lt k 4294967284 ltac:(discriminate)) as L.
  pose proof (N.div_mod' k 4294967284) as D. set (q := (k / 4294967284)%N) in *. set (r := (k mod 4294967284)%N) in *.
  destruct (N.leb_spec (4294967295 - 1) (10 + r + 1)) as [B|B].
  - assert (r = 4294967283)%N by lia. replace (k + 1)%N with (0 + (q + 1) * 4294967284)%N by lia.
    rewrite N.mod_add by discriminate. reflexivity.
  - replace (k + 1)%N with (r + 1 + q * 4294967284)%N by lia. rewrite N.mod_add by discriminate.
    rewrite N.mod_small by lia. lia.
Qed.
Lemma eff_seq tr s t s' : eff E s t s' -> seq_ok tr s -> seq_ok (tr ++ t) s'.
Proof.
  intros F Q U. unfold seq_ok in Q. rewrite allocs_app. destruct F; cbn -[N.add] in *; rewrite ?N.add_0_r; auto; try discriminate.
  rewrite <- number_next, <- Q by assumption. reflexivity.
Qed.

(** * Outstanding requests *)
Definition own (n : N) (x : option nat) (o : out) : option nat :=
  match o with
  | XSend _ a k _ true => if N.eqb n k then Some a else x
  | XMatch _ _ k _ => if N.eqb n k then None else x
  | _ => x
  end.
Definition owner (n : N) (tr : list out) : option nat := fold_left (own n) tr None.
Definition owner_ok (tr : list out) (s : st) : Prop := api_up E s = true -> forall n, pfind n (s_pend E s) = owner n tr.

Lemma pfind_pdel n k p : (count_occ N.eq_dec (map fst p) k <= 1)%nat -> pfind n (pdel k p) = if N.eqb n k then None else pfind n p.
Proof.
  induction p as [|[j c] p IH]; intros C; cbn in *; [destruct (N.eqb n k); reflexivity|].
  destruct (N.eqb k j) eqn:Q.
  - apply N.eqb_eq in Q. subst j. destruct (N.eqb n k) eqn:R; [|reflexivity].
    apply N.eqb_eq in R. subst n. destruct (N.eq_dec k k); [|congruence].
    assert (Z : count_occ N.eq_dec (map fst p) k = 0%nat) by lia.
    apply (count_occ_not_In N.eq_dec) in Z. clear -Z. induction p as [|[j c] p IH]; cbn in *; [reflexivity|].
    destruct (N.eqb k j) eqn:R; [apply N.eqb_eq in R; subst; tauto|]. apply IH. tauto.
  - apply N.eqb_neq in Q. destruct (N.eq_dec j k); [congruence|]. cbn. rewrite IH by exact C.
    destruct (N.eqb n j) eqn:R; [|reflexivity]. apply N.eqb_eq in R. subst n.
    destruct (N.eqb j k) eqn:R; [apply N.eqb_eq in R; congruence|reflexivity].
Qed.

Definition keys_ok (s : st) : Prop := forall k, (count_occ N.eq_dec (map fst (s_pend E s)) k <= 1)%nat.
Lemma pfind_none n p : pfind n p = None -> count_occ N.eq_dec (map fst p) n = 0%nat.
Proof.
  induction p as [|[j c] p IH]; cbn; [auto|]. destruct (N.eqb n j) eqn:R; [discriminate|].
  intros F. apply N.eqb_neq in R. destruct (N.eq_dec j n); [congruence|auto].
Qed.
Lemma pdel_count n p k : (count_occ N.eq_dec (map fst (pdel n p)) k <= count_occ N.eq_dec (map fst p) k)%nat.
Proof.
  induction p as [|[j c] p IH]; cbn; [lia|]. destruct (N.eqb n j); cbn; [destruct (N.eq_dec j k); lia|].
  destruct (N.eq_dec j k); lia.
Qed.
Lemma eff_keys s t s' : eff E s t s' -> keys_ok s -> keys_ok s'.
Proof.
  intros F K k. specialize (K k). destruct F; cbn; auto; try lia.
  - apply pfind_none in H1. destruct (N.eq_dec n k); [subst; lia|exact K].
  - pose proof (pdel_count n (s_pend E s) k). lia.
Qed.
Lemma eff_owner tr s t s' : eff E s t s' -> keys_ok s -> owner_ok tr s -> owner_ok (tr ++ t) s'.
Proof.
  intros F K O U n0. unfold owner_ok, owner in *. rewrite fold_left_app. destruct F; cbn in *; auto; try discriminate.
  - rewrite O by assumption. reflexivity.
  - rewrite pfind_pdel by apply K. rewrite O by assumption. reflexivity.
Qed.

(** * The message being worked on *)
Definition cur1 (x : option (header * x_msg E)) (o : out) : option (header * x_msg E) :=
  match o with
  | XIn _ h m => if x_confirm E m then x else Some (h, m)
  | XMatch _ _ _ _ => None
  | XEmit _ (EBroadcast _ _ _) => None
  | XEmit _ (EError _ XUnknown) => None
  | _ => x
  end.
Definition cur (tr : list out) : option (header * x_msg E) := fold_left cur1 tr None.
Definition cur_ok (tr : list out) (s : st) : Prop :=
  cur tr = match s_msg E s with
           | MWait _ h m (Some true) => None
           | MWait _ h m _ => Some (h, m)
           | _ => None
           end.
Lemma eff_cur tr s t s' : eff E s t s' -> senders_ok E s -> accepts_ok E s -> cur_ok tr s -> cur_ok (tr ++ t) s'.
Proof.
  intros F S K C. unfold cur_ok, cur in *. rewrite fold_left_app.
  pose proof (eff_xmatch _ _ _ F S K) as XM.
  destruct F; cbn in *; auto.
  all: try (rewrite C; match goal with H : s_msg E ?x = _ |- _ => rewrite H; reflexivity end).
  all: try solve [repeat match goal with H : s_msg E ?x = _ |- _ => rewrite H in * | H : x_confirm E _ = _ |- _ => rewrite H in * end; auto].
  all: try (exfalso; destruct (XM _ _ _ (or_introl eq_refl)) as (_&_&_&_&?&_); discriminate).
  - destruct H as [H|H]; rewrite H in C; rewrite C; destruct H0 as [-> | ->]; reflexivity.
  - destruct H0 as [->|(x&->&[M|N])]; auto.
    + rewrite M in *. destruct x; auto.
    + destruct x; auto. congruence.
  - destruct (x_broadcast E m); subst e; reflexivity.
Qed.

(** * Connected *)
Fixpoint conns (tr : list out) : nat :=
  match tr with [] => 0 | XEmit _ (EConnected _) :: tr => S (conns tr) | _ :: tr => conns tr end.
Fixpoint shakes (tr : list out) : nat :=
  match tr with [] => 0 | XAuthEnd _ _ (inl _) :: tr => S (shakes tr) | _ :: tr => shakes tr end.
Fixpoint sets (q : list amsg) : nat :=
  match q with [] => 0 | ASet (inl _) :: q => S (sets q) | _ :: q => sets q end.
Lemma conns_app tr t : conns (tr ++ t) = (conns tr + conns t)%nat.
Proof. induction tr as [|o tr IH]; [reflexivity|]. destruct o; cbn; try apply IH. destruct e; cbn; rewrite ?IH; reflexivity. Qed.
Lemma shakes_app tr t : shakes (tr ++ t) = (shakes tr + shakes t)%nat.
Proof. induction tr as [|o tr IH]; [reflexivity|]. destruct o; cbn; try apply IH. destruct r; cbn; rewrite ?IH; reflexivity. Qed.
Lemma sets_app tr t : sets (tr ++ t) = (sets tr + sets t)%nat.
Proof. induction tr as [|o tr IH]; [reflexivity|]. destruct o as [[?|?]|?]; cbn; rewrite ?IH; reflexivity. Qed.
Definition conn_ok (tr : list out) (s : st) : Prop := (conns tr + sets (s_qauth E s) <= shakes tr)%nat.
Lemma eff_conn tr s t s' : eff E s t s' -> conn_ok tr s -> conn_ok (tr ++ t) s'.
Proof.
  intros F C. unfold conn_ok in *. rewrite conns_app, shakes_app. destruct F; cbn in *; try lia.
  all: rewrite ?sets_app; cbn; try lia.
  all: try match goal with H : s_qauth E ?x = _ |- _ => rewrite H in C; cbn in C end; try lia.
  all: try (destruct r; cbn; lia).
  - destruct H0 as [->|(x&->&_)]; lia.
  - destruct (x_broadcast E m); subst e; lia.
Qed.

(** * Events *)
Fixpoint emitted (tr : list out) : list (cevent E) :=
  match tr with [] => [] | XEmit _ e :: tr => e :: emitted tr | _ :: tr => emitted tr end.
Fixpoint handled (tr : list out) : list (cevent E) :=
  match tr with [] => [] | XEvent _ e :: tr => e :: handled tr | _ :: tr => handled tr end.
Lemma emitted_app tr t : emitted (tr ++ t) = emitted tr ++ emitted t.
Proof. induction tr as [|o tr IH]; [reflexivity|]. destruct o; cbn; rewrite ?IH; reflexivity. Qed.
Lemma handled_app tr t : handled (tr ++ t) = handled tr ++ handled t.
Proof. induction tr as [|o tr IH]; [reflexivity|]. destruct o; cbn; rewrite ?IH; reflexivity. Qed.
Definition emit_ok (tr : list out) (s : st) : Prop :=
  exists rest, emitted tr = handled tr ++ rest /\ (s_over E s = false -> rest = s_emit E s).

(** a transition after the end *)
Lemma eff_over_quiet s t s' : eff E s t s' -> tasks_ok E s -> s_over E s = true ->
  s_over E s' = true /\ emitted t = [] /\ handled t = [].
Proof.
  intros F K O. destruct (k_over E s K O) as (D&EM&H&W). destruct (k_done E s K D) as (A&M&C).
  unfold msg_up in M. destruct F; cbn; auto; try congruence.
  all: try match goal with H : s_msg E ?x = _ |- _ => rewrite H in M; discriminate end.
  destruct H0 as [H0|H0]; [congruence|]. unfold msg_up in H0. rewrite H0 in M. discriminate.
Qed.
Lemma eff_emit_ok tr s t s' : eff E s t s' -> tasks_ok E s -> emit_ok tr s -> emit_ok (tr ++ t) s'.
Proof.
  intros F K (rest&R1&R2). unfold emit_ok. rewrite emitted_app, handled_app.
  destruct (s_over E s) eqn:O.
  - destruct (eff_over_quiet _ _ _ F K O) as (O'&-> & ->). rewrite !app_nil_r. exists rest. split; [exact R1|congruence].
  - specialize (R2 eq_refl). subst rest. destruct F; cbn; rewrite ?app_nil_r; eauto.
    all: try (eexists; split; [rewrite R1, <- app_assoc; reflexivity|reflexivity]).
    + eexists. split; [exact R1|discriminate].
    + rewrite R1, H. exists q. rewrite <- app_assoc. split; reflexivity.
Qed.

(** * Ends *)
Definition panicked (tr : list out) : Prop := In (XOver E false (Some XPanic)) tr.
Record ends_ok (tr : list out) (s : st) : Prop := {
  e_api : (exists r, In (XApiEnd E r) tr) -> api_up E s = false;
  e_api' : api_up E s = false -> (exists r, In (XApiEnd E r) tr) \/ panicked tr;
  e_msg : (exists r, In (XMsgEnd E r) tr) -> msg_up E s = false;
  e_msg' : msg_up E s = false -> (exists r, In (XMsgEnd E r) tr) \/ panicked tr;
  e_cli : (exists r, In (XCliEnd E r) tr) -> s_cli E s <> None;
  e_done : (exists r, In (XEmit E (EShutdown E r)) tr) -> s_done E s = true;
  e_done' : s_done E s = true -> (exists r, In (XEmit E (EShutdown E r)) tr) \/ panicked tr;
  e_over : (exists b r, In (XOver E b r) tr) -> s_over E s = true;
  e_over' : s_over E s = true -> exists b r, In (XOver E b r) tr
}.
Lemma eff_ends tr s t s' : eff E s t s' -> tasks_ok E s -> ends_ok tr s -> ends_ok (tr ++ t) s'.
Proof.
  intros F K [A1 A2 M1 M2 C1 D1 D2 O1 O2].
  assert (PA : panicked tr -> panicked (tr ++ t)) by (intros P; apply in_app_iff; auto).
  assert (A2' : api_up E s = false -> (exists r, In (XApiEnd E r) (tr ++ t)) \/ panicked (tr ++ t)).
  { intros U. destruct (A2 U) as [[r J]|P]; [left; exists r; apply in_app_iff; auto|right; auto]. }
  assert (M2' : msg_up E s = false -> (exists r, In (XMsgEnd E r) (tr ++ t)) \/ panicked (tr ++ t)).
  { intros U. destruct (M2 U) as [[r J]|P]; [left; exists r; apply in_app_iff; auto|right; auto]. }
  assert (O2' : s_over E s = true -> exists b r, In (XOver E b r) (tr ++ t)).
  { intros U. destruct (O2 U) as (b&r&J). exists b, r. apply in_app_iff. auto. }
  assert (D2' : s_done E s = true -> (exists r, In (XEmit E (EShutdown E r)) (tr ++ t)) \/ panicked (tr ++ t)).
  { intros U. destruct (D2 U) as [[r J]|P]; [left; exists r; apply in_app_iff; auto|right; auto]. }
  clear PA A2 M2 O2 D2.
  assert (DF : forall z, In z t -> match z with XEmit _ (EShutdown _ _) => s_done E s' = true | XApiEnd _ _ => api_up E s' = false
     | XMsgEnd _ _ => msg_up E s' = false | XCliEnd _ _ => s_cli E s' <> None | XOver _ _ _ => s_over E s' = true | _ => True end).
  { intros z J. destruct F; cbn in J.
    all: repeat match type of J with _ \/ _ => destruct J as [J|J] | False => destruct J end; subst z; cbn; auto.
    - destruct H0 as [->|(x&->&_)]; exact Logic.I.
    - destruct (x_broadcast E m); subst e; exact Logic.I.
    - discriminate. }
  assert (MON : (api_up E s = false -> api_up E s' = false) /\ (msg_up E s = false -> msg_up E s' = false)
     /\ (s_cli E s <> None -> s_cli E s' <> None) /\ (s_done E s = true -> s_done E s' = true) /\ (s_over E s = true -> s_over E s' = true)).
  { unfold api_up, msg_up in *. destruct F; cbn; repeat split; auto; try discriminate.
    all: try match goal with H : s_msg E ?x = _ |- _ => rewrite H; discriminate end.
    all: try (destruct H as [H|H]; rewrite H; discriminate). }
  destruct MON as (N1&N2&N3&N4&N5).
  split.
  - intros [r J]. apply in_app_iff in J. destruct J as [J|J]; [eauto|exact (DF _ J)].
  - destruct F; cbn; auto; intros _; try (left; eexists; apply in_app_iff; right; cbn; auto; fail).
    right. apply in_app_iff. right. left. reflexivity.
  - intros [r J]. apply in_app_iff in J. destruct J as [J|J]; [eauto|exact (DF _ J)].
  - unfold msg_up in *. destruct F; cbn; auto; try discriminate.
    + destruct H0 as [-> | ->]; discriminate.
    + left. eexists. apply in_app_iff. right. left. reflexivity.
    + right. apply in_app_iff. right. left. reflexivity.
  - intros [r J]. apply in_app_iff in J. destruct J as [J|J]; [eauto|exact (DF _ J)].
  - intros [r J]. apply in_app_iff in J. destruct J as [J|J]; [eauto|exact (DF _ J)].
  - destruct F; cbn; auto; intros _.
    + left. eexists. apply in_app_iff. right. left. reflexivity.
    + right. apply in_app_iff. right. left. reflexivity.
  - intros (b&r&J). apply in_app_iff in J. destruct J as [J|J]; [eauto|exact (DF _ J)].
  - destruct F; cbn; auto; intros _; do 2 eexists; apply in_app_iff; right; left; reflexivity.
Qed.

(** the connection is ending *)
Definition ending (tr : list out) : Prop :=
  (exists r, In (XApiEnd E r) tr) \/ (exists r, In (XMsgEnd E r) tr) \/ (exists r, In (XCliEnd E r) tr)
  \/ In (XCancel E) tr \/ (exists a, In (XCall E a (KShutdown E)) tr) \/ panicked tr.

Definition why_ok (tr : list out) (s : st) : Prop := s_cancel E s = true -> ending tr.
Lemma ending_app tr t : ending tr -> ending (tr ++ t).
Proof.
  unfold ending, panicked. intros [[r J]|[[r J]|[[r J]|[J|[[a J]|J]]]]].
  - left. exists r. apply in_app_iff. auto.
  - right. left. exists r. apply in_app_iff. auto.
  - right. right. left. exists r. apply in_app_iff. auto.
  - right. right. right. left. apply in_app_iff. auto.
  - right. right. right. right. left. exists a. apply in_app_iff. auto.
  - right. right. right. right. right. apply in_app_iff. auto.
Qed.
Lemma eff_why tr s t s' : eff E s t s' -> asked E tr s -> tasks_ok E s -> why_ok tr s -> why_ok (tr ++ t) s'.
Proof.
  intros F A K W. unfold why_ok in *. 
  assert (NEW : (exists r, In (XApiEnd E r) t) \/ (exists r, In (XMsgEnd E r) t) \/ (exists r, In (XCliEnd E r) t)
    \/ In (XCancel E) t \/ panicked t -> ending (tr ++ t)).
  { unfold ending, panicked. intros [[r J]|[[r J]|[[r J]|[J|J]]]].
    - left. exists r. apply in_app_iff. auto.
    - right. left. exists r. apply in_app_iff. auto.
    - right. right. left. exists r. apply in_app_iff. auto.
    - right. right. right. left. apply in_app_iff. auto.
    - right. right. right. right. right. apply in_app_iff. auto. }
  destruct F; cbn; intros C; try (apply ending_app; auto; fail).
  all: try (apply NEW; unfold panicked; cbn; eauto 10; fail).
  right. right. right. right. left. exists a. rewrite in_app_iff. left.
  apply (q_stop _ _ _ A). apply in_stop. right. left. rewrite H0. left. reflexivity.
Qed.

Definition kept_ok (s : st) : Prop :=
  forall a k sg, s_cancel E s = false -> act E a (acts s) = Some (k, sg) -> waiting E sg = true -> senders E a s <> [].

Lemma cancel_mono s t s' : eff E s t s' -> s_cancel E s' = false -> s_cancel E s = false.
Proof. destruct 1; cbn; auto; discriminate. Qed.

Lemma sender_keep s t s' : eff E s t s' -> tasks_ok E s -> s_cancel E s' = false -> forall b x, act E b (acts s') = act E b (acts s) ->
  act E b (acts s) <> None -> (cnt (senders E b s) x <= cnt (senders E b s') x)%nat.
Proof.
  intros F K C b x A B.
  assert (C' := cancel_mono _ _ _ F C).
  assert (AU : api_up E s = true) by (destruct (api_up E s) eqn:U; [reflexivity|destruct (k_api E s K U) as (?&?&?); congruence]).
  assert (DN : s_done E s = false) by (destruct (s_done E s) eqn:U; [destruct (k_done E s K U); congruence|reflexivity]).
  destruct F; try discriminate C; try congruence.
  all: try (counts; lia).
  all: try (cbn in A; rewrite act_put_any in A; destruct (Nat.eqb a b) eqn:Q;
     [apply Nat.eqb_eq in Q; subst b; match goal with H : act E _ _ = Some _ |- _ => rewrite H in A end; discriminate
     |apply Nat.eqb_neq in Q; counts; rewrite ?(one_other b a) by auto; cbn; try lia]).
  rewrite (pdel_cnt n _ a b x H1). rewrite (one_other b a) by auto. cbn. lia.
Qed.

Lemma moved_change s t a k sg k' sg' : moved E s t a k sg k' sg' -> sg <> sg'.
Proof. destruct 1; try discriminate. destruct H0; discriminate. Qed.

Lemma eff_kept s t s' : eff E s t s' -> ids_ok E s -> senders_ok E s -> tasks_ok E s -> kept_ok s -> kept_ok s'.
Proof.
  intros F I S T K a k sg C A W N.
  destruct (eff_act E _ _ _ F I S a k sg A) as [X|[(_&->&_)|(k0&sg0&X&V)]]; [|discriminate|].
  - pose proof (K a k sg (cancel_mono _ _ _ F C) X W) as P. destruct (senders E a s) as [|x l] eqn:Q; [auto|].
    assert (L := sender_keep _ _ _ F T C a x ltac:(congruence) ltac:(congruence)). rewrite Q, N in L. cbn in L.
    destruct (sender_dec x x); [lia|congruence].
  - (* moved to a waiting stage: the sender was pushed *)
    assert (D := moved_change _ _ _ _ _ _ _ V).
    assert (G : forall l, l = acts s -> act E a l = Some (k, sg) -> False) by (intros l -> Z; congruence).
    destruct F; cbn in A; try (exact (G _ eq_refl A)).
    all: try rewrite act_put_any in A; try rewrite act_del_any in A by apply I.
    all: match type of A with context [Nat.eqb ?u ?v] => destruct (Nat.eqb u v) eqn:Q; [apply Nat.eqb_eq in Q; subst|exact (G _ eq_refl A)] end.
    all: try discriminate.
    all: try (rewrite X in A; injection A as <- <-; try discriminate W).
    all: try (unfold senders in N; cbn in N; rewrite flat_map_app in N; cbn in N; rewrite one_same in N; apply app_eq_nil in N; destruct N as [N _];
       apply app_eq_nil in N; destruct N as [_ N]; discriminate).
    all: try (injection A as <- <-; discriminate W).
Qed.

(** * One number for each call *)
Definition numb_ok (tr : list out) (s : st) : Prop :=
  forall a k sg, act E a (acts s) = Some (k, sg) -> sg = Init E \/ sg = WSeq E -> forall n, ~ In (XSeqNo E a n) tr.
Lemma eff_xseqno (s s' : st) t : eff E s t s' -> forall a n, In (XSeqNo E a n) t ->
  exists k, act E a (acts s) = Some (k, WSeq E) /\ act E a (acts s') = Some (k, GSeq E n) /\ t = [XSeqNo E a n].
Proof.
  intros F a0 n0 J. destruct F; cbn in J.
  all: repeat match type of J with _ \/ _ => destruct J as [J|J] | False => destruct J end; try discriminate.
  injection J as <- <-. exists k. cbn. rewrite act_put_any, Nat.eqb_refl, H1. auto.
Qed.
Lemma eff_numb tr s t s' : eff E s t s' -> ids_ok E s -> senders_ok E s -> life E tr s -> numb_ok tr s -> numb_ok (tr ++ t) s'.
Proof.
  intros F I S L Q a k sg A W n J. apply in_app_iff in J. destruct J as [J|J].
  - destruct (eff_act E _ _ _ F I S a k sg A) as [X|[(X&_&_)|(k0&sg0&X&V)]].
    + exact (Q a k sg X W n J).
    + pose proof (l_lt _ _ _ L a _ J eq_refl). lia.
    + destruct V; destruct W as [W|W]; try discriminate W; exact (Q a _ _ X (or_introl eq_refl) n J).
  - destruct (eff_xseqno _ _ _ F a n J) as (k0&_&A'&_). rewrite A in A'. injection A' as _ ->. destruct W; discriminate.
Qed.

(** * A confirmation starts a handshake at once *)
Definition last_ok (tr : list out) : Prop := forall t0 h m, tr = t0 ++ [XIn E h m] -> x_confirm E m = false.
Lemma eff_last tr s t s' : eff E s t s' -> last_ok tr -> last_ok (tr ++ t).
Proof.
  intros F L t0 h0 m0 Q.
  assert (K : t = [] \/ exists t1 o, t = t1 ++ [o]) by (destruct t using rev_ind; eauto).
  destruct K as [->|(t1&o&->)]; [rewrite app_nil_r in Q; eauto|].
  rewrite app_assoc in Q. apply app_inj_tail in Q. destruct Q as [_ ->].
  assert (G : forall x, t1 ++ [XIn E h0 m0] = [x] -> x = XIn E h0 m0).
  { intros x W. destruct t1 as [|y [|z t1]]; cbn in W; [injection W; auto|discriminate|discriminate]. }
  assert (G2 : forall x y, t1 ++ [XIn E h0 m0] = [x; y] -> y = XIn E h0 m0).
  { intros x y W. destruct t1 as [|z [|z' [|z2 t1]]]; cbn in W; try discriminate; injection W; auto. }
  inversion F; subst; match goal with H : _ = t1 ++ _ |- _ => symmetry in H end;
  first [match goal with H : _ = [] |- _ => destruct t1; discriminate H end
        |match goal with H : _ = [_] |- _ => apply G in H; try discriminate H; try (injection H as <- <-; assumption) end
        |match goal with H : _ = [_; _] |- _ => apply G2 in H; discriminate H end
        |match goal with H : _ = snd (crash _ _) |- _ => cbn in H; apply G in H; discriminate H end].
Qed.

(** * All together *)
Record inv (tr : list out) (s : st) : Prop := {
  i_ids : ids_ok E s; i_tasks : tasks_ok E s; i_accepts : accepts_ok E s; i_senders : senders_ok E s; i_keys : keys_ok s;
  i_life : life E tr s; i_staged : staged E tr s; i_asked : asked E tr s; i_once : once tr s; i_left : left_ok tr s;
  i_seq : seq_ok tr s; i_owner : owner_ok tr s; i_cur : cur_ok tr s; i_conn : conn_ok tr s; i_emit : emit_ok tr s;
  i_ends : ends_ok tr s; i_why : why_ok tr s; i_kept : kept_ok s; i_numb : numb_ok tr s; i_last : last_ok tr
}.

Lemma eff_inv tr s t s' : eff E s t s' -> inv tr s -> inv (tr ++ t) s'.
Proof.
  intros F [? ? ? ? ? ? ? ? ? ? ? ? ? ? ? ? ? ? ? ?]. split.
  - eapply eff_ids; eauto.
  - eapply eff_tasks; eauto.
  - eapply eff_accepts; eauto.
  - eapply eff_senders; eauto.
  - eapply eff_keys; eauto.
  - eapply eff_life; eauto.
  - eapply eff_staged; eauto.
  - eapply eff_asked; eauto.
  - eapply eff_once; eauto.
  - eapply eff_left; eauto.
  - eapply eff_seq; eauto.
  - eapply eff_owner; eauto.
  - eapply eff_cur; eauto.
  - eapply eff_conn; eauto.
  - eapply eff_emit_ok; eauto.
  - eapply eff_ends; eauto.
  - eapply eff_why; eauto.
  - eapply eff_kept; eauto.
  - eapply eff_numb; eauto.
  - eapply eff_last; eauto.
Qed.

Lemma start_inv : inv [] (start E).
Proof.
  split.
  - split; [constructor|intros a []].
  - split; cbn; intros; try discriminate; try congruence. 
  - reflexivity.
  - intros a. left. reflexivity.
  - intros k. cbn. lia.
  - split; cbn; intros; try contradiction; discriminate.
  - split; cbn; intros; try contradiction; discriminate.
  - split; cbn; intros; contradiction.
  - split; cbn; intros; try contradiction; discriminate.
  - intros a x []. 
  - intros _. reflexivity.
  - intros _ n. reflexivity.
  - reflexivity.
  - unfold conn_ok. cbn. lia.
  - exists []. split; reflexivity.
  - split; cbn; try discriminate.
    + intros [r []].
    + intros [r []].
    + intros [r []].
    + intros [r []].
    + intros (b&r&[]).
  - intros C. discriminate C.
  - intros a k sg _ A. discriminate A.
  - intros a k sg A. discriminate A.
  - intros [|? ?] h m Q; discriminate Q.
Qed.

Lemma effs_inv s t s' : effs E s t s' -> forall tr, inv tr s -> inv (tr ++ t) s'.
Proof.
  induction 1 as [|s t s1 t2 s2 F _ IH]; intros tr I; [rewrite app_nil_r; exact I|].
  rewrite app_assoc. apply IH. eapply eff_inv; eauto.
Qed.

Lemma runs_inv ls : forall s tr s' t, inv tr s -> runs E ls s = Some (s', t) -> inv (tr ++ t) s'.
Proof.
  induction ls as [|l ls IH]; intros s tr s' t I R; cbn in R.
  - injection R as <- <-. rewrite app_nil_r. exact I.
  - destruct (fire E l s) as [[s1 t1]|] eqn:F; [|discriminate].
    destruct (runs E ls s1) as [[s2 t2]|] eqn:R2; [|discriminate]. injection R as <- <-.
    rewrite app_assoc. eapply IH; [|exact R2]. eapply effs_inv; [apply (fire_effs E _ _ _ _ F)|exact I].
Qed.

(** A fact about every output, given what precedes it. *)
Lemma runs_good (ok : list out -> out -> Prop) :
  (forall tr s t s', inv tr s -> eff E s t s' -> forall t1 o t2, t = t1 ++ o :: t2 -> ok (tr ++ t1) o) ->
  forall ls s t, runs E ls (start E) = Some (s, t) -> forall t1 o t2, t = t1 ++ o :: t2 -> ok t1 o.
Proof.
  intros H.
  assert (HE : forall s t s', effs E s t s' -> forall tr, inv tr s -> forall t1 o t2, t = t1 ++ o :: t2 -> ok (tr ++ t1) o).
  { induction 1 as [|s t s1 t2 s2 F _ IH]; intros tr I u1 o u2 Q; [destruct u1; discriminate|].
    destruct (app_eq_app _ _ _ _ Q) as (l&[[Q1 Q2]|[Q1 Q2]]).
    - destruct l as [|x l].
      + cbn in Q2. subst t2. rewrite app_nil_r in Q1. subst t. specialize (IH (tr ++ u1) (eff_inv _ _ _ _ F I) [] o u2 eq_refl).
        rewrite app_nil_r in IH. exact IH.
      + injection Q2 as <- Q2. eapply H; eauto.
    - subst u1. rewrite app_assoc. eapply IH; [eapply eff_inv; eauto|exact Q2]. }
  assert (HR : forall ls s tr s' t, inv tr s -> runs E ls s = Some (s', t) -> forall t1 o t2, t = t1 ++ o :: t2 -> ok (tr ++ t1) o).
  { induction ls as [|l ls IH]; intros s tr s' t I R u1 o u2 Q; cbn in R.
    - injection R as <- <-. destruct u1; discriminate.
    - destruct (fire E l s) as [[s1 t1]|] eqn:F; [|discriminate].
      destruct (runs E ls s1) as [[s2 t2]|] eqn:R2; [|discriminate]. injection R as <- <-.
      pose proof (fire_effs E _ _ _ _ F) as FE.
      destruct (app_eq_app _ _ _ _ Q) as (l0&[[Q1 Q2]|[Q1 Q2]]).
      + destruct l0 as [|x l0].
        * cbn in Q2. subst t2. rewrite app_nil_r in Q1. subst t1.
          specialize (IH s1 (tr ++ u1) s2 _ (effs_inv _ _ _ FE _ I) R2 [] o u2 eq_refl). rewrite app_nil_r in IH. exact IH.
        * injection Q2 as <- Q2. eapply HE; eauto.
      + subst u1. rewrite app_assoc. eapply IH; [eapply effs_inv; eauto|exact R2|exact Q2]. }
  intros ls s t R t1 o t2 Q. exact (HR ls (start E) [] s t start_inv R t1 o t2 Q).
Qed.

End Trace.
