(** The invariant of a producer and a consumer that are connected (C41). *)
From Coq Require Import List NArith Bool Lia Arith.
From Verif Require Import Bytes WireModel FrameModel FrameProofs.
From Verif Require ProducerModel ProducerProofs ProducerSeg ProducerStop ConsumerModel ConsumerTrace ConsumerSpec PropConsumer PropConsumerLife.
From Verif Require SystemServer.
From Verif Require Import SystemModel.
Import ListNotations.
Open Scope N_scope.

Section Proofs.
Variable PE : ProducerModel.env.
Variable CE : ConsumerModel.cenv.
Variable K : codec PE CE.
Variable u : N.
Hypothesis COMPAT : compatible PE CE K.

(** ** The consumer: what it has received before it sends *)
Definition polite (t : list (ConsumerModel.out CE)) : Prop := forall t1 a k t2, t = t1 ++ ConsumerModel.XCall CE a k :: t2 ->
  match k with ConsumerModel.KReq _ _ _ | ConsumerModel.KBeacon _ _ _ => In (ConsumerModel.XEmit CE (ConsumerModel.EConnected CE)) t1 | _ => True end.

Section Client.
Variable t : list (ConsumerModel.out CE).
Hypothesis X : ConsumerSpec.exec CE t.
Hypothesis POL : polite t.

Lemma matched_in a n m : In (ConsumerModel.XMatch CE a n m) t -> exists h, In (ConsumerModel.XIn CE h m) t.
Proof.
  intros J. destruct (in_split _ _ J) as (t1 & t2 & Q).
  destruct (ConsumerSpec.at_match CE t X _ _ _ _ _ Q) as ((h & C & _) & _).
  destruct (ConsumerSpec.cur_sound CE t X _ _ _ _ Q C) as (l1 & l2 & -> & _).
  exists h. rewrite Q. apply in_app_iff. left. apply in_elt.
Qed.

Lemma spawned_in a : In (ConsumerModel.XSpawn CE a) t -> exists h m, In (ConsumerModel.XIn CE h m) t /\ ConsumerModel.x_confirm CE m = true.
Proof.
  intros J. destruct (in_split _ _ J) as (t1 & t2 & Q). destruct (ConsumerSpec.at_fresh CE t X _ _ _ Q) as ((t0 & h & m & -> & C) & _).
  exists h, m. split; [|exact C]. rewrite Q. rewrite <- app_assoc. apply in_elt.
Qed.

Lemma connected_in : In (ConsumerModel.XEmit CE (ConsumerModel.EConnected CE)) t ->
  (exists h m, In (ConsumerModel.XIn CE h m) t /\ ConsumerModel.x_confirm CE m = true) /\
  (exists h m, In (ConsumerModel.XIn CE h m) t /\ ConsumerModel.x_self CE m <> None) /\
  exists h m, In (ConsumerModel.XIn CE h m) t /\ ConsumerModel.x_hash CE m = Some None.
Proof.
  intros J. destruct (in_split _ _ J) as (t1 & t2 & Q).
  destruct (ConsumerSpec.at_emit CE t X _ _ _ Q) as (_ & _ & a & v & w & A & _).
  assert (A' : In (ConsumerModel.XAuthEnd CE a (inl v)) t) by (rewrite Q; apply in_app_iff; auto).
  destruct (in_split _ _ A') as (v1 & v2 & V). destruct (ConsumerSpec.at_auth CE t X _ _ _ _ V) as (S & _ & m0 & m1 & M0 & S0 & M1 & H1).
  assert (Z : forall o, In o v1 -> In o t) by (intros o W; rewrite V; apply in_app_iff; auto).
  split; [apply spawned_in with (a := a); auto|]. split.
  - destruct (matched_in a 0 m0 (Z _ M0)) as (h & I). exists h, m0. split; [exact I|]. congruence.
  - destruct (matched_in a 1 m1 (Z _ M1)) as (h & I). exists h, m1. auto.
Qed.

Lemma sent_in a n p ok : In (ConsumerModel.XSend CE a n p ok) t ->
  (exists h m, In (ConsumerModel.XIn CE h m) t /\ ConsumerModel.x_confirm CE m = true) /\
  match p with
  | ConsumerModel.PSelf _ => True
  | ConsumerModel.PHash _ => exists h m, In (ConsumerModel.XIn CE h m) t /\ ConsumerModel.x_self CE m <> None
  | ConsumerModel.PUser _ _ _ => exists h m, In (ConsumerModel.XIn CE h m) t /\ ConsumerModel.x_hash CE m = Some None
  end.
Proof.
  intros J. destruct (in_split _ _ J) as (t1 & t2 & Q). destruct (ConsumerSpec.at_send CE t X _ _ _ _ _ _ Q) as (P & _).
  assert (Z : forall o, In o t1 -> In o t) by (intros o W; rewrite Q; apply in_app_iff; auto).
  destruct p; cbn [ConsumerTrace.paid] in P.
  - destruct P as (_ & S). split; [|exact I]. apply spawned_in with (a := a). auto.
  - destruct P as (_ & S & m & v & M & W). split; [apply spawned_in with (a := a); auto|].
    destruct (matched_in a 0 m (Z _ M)) as (h & I). exists h, m. split; [exact I|]. congruence.
  - destruct P as (_ & (r & C) & _).
    assert (EC : In (ConsumerModel.XEmit CE (ConsumerModel.EConnected CE)) t).
    { destruct C as [C|C]; destruct (in_split _ _ (Z _ C)) as (l1 & l2 & L); pose proof (POL _ _ _ _ L) as W; cbn in W;
        rewrite L; apply in_app_iff; auto. }
    destruct (connected_in EC) as (C1 & _ & C3). auto.
Qed.
End Client.

(** ** Packets *)
Lemma mod32 n : n mod 2 ^ 32 < 2 ^ 32. Proof. apply N.mod_lt. discriminate. Qed.
Lemma mod64 n : n mod 2 ^ 64 < 2 ^ 64. Proof. apply N.mod_lt. discriminate. Qed.

Lemma up_ok ms qs : up_packets PE CE K ms qs -> Forall packet_ok qs /\ Forall (good (ProducerModel.e_get PE) (ProducerModel.e_sig PE)) qs.
Proof.
  induction 1 as [|[n p] q ms qs (ts & ->) F IH]; [split; constructor|]. destruct IH as (I1 & I2).
  destruct (y_up _ _ _ COMPAT p) as (A & B & m & G & _). cbn [fst snd]. split; constructor; auto.
  - repeat split; cbn [frame p_id p_sig p_seq p_ts p_body]; auto using mod32, mod64. apply (y_sig16 _ _ _ COMPAT).
  - split; cbn [frame p_id p_sig p_body]; [symmetry; apply (y_sig _ _ _ COMPAT)|]. eauto.
Qed.
Lemma down_ok ms qs : down_packets PE CE K ms qs -> Forall packet_ok qs /\ Forall (good (ConsumerModel.x_get CE) (ConsumerModel.x_sig CE)) qs.
Proof.
  induction 1 as [|[n p] q ms qs (ts & ->) F IH]; [split; constructor|]. destruct IH as (I1 & I2).
  destruct (y_down _ _ _ COMPAT p) as (A & B & m & G & _). cbn [fst snd]. split; constructor; auto.
  - repeat split; cbn [frame p_id p_sig p_seq p_ts p_body]; auto using mod32, mod64.
    rewrite (y_sig _ _ _ COMPAT). apply (y_sig16 _ _ _ COMPAT).
  - split; cbn [frame p_id p_sig p_body]; [apply (y_sig _ _ _ COMPAT)|]. eauto.
Qed.
Lemma goods_calm {M} (dm : N -> bytes -> res M err) sig qs : Forall (good dm sig) qs -> Forall (calm dm sig) qs.
Proof. apply Forall_impl. intros q. apply good_calm. Qed.
Lemma incomplete_nil : incomplete [].
Proof. left. unfold blen. cbn. lia. Qed.
Lemma stream_app a b : stream (a ++ b) = stream a ++ stream b.
Proof. apply flat_map_app. Qed.

(** ** What is delivered comes from the other side *)
Lemma in_flat_deliver {M} (dm : N -> bytes -> res M err) sig h m qs : In (h, m) (flat_map (deliver dm sig) qs) ->
  exists q, In q qs /\ h = hdr q /\ dm (p_id q) (p_body q) = Ok m.
Proof.
  intros J. apply in_flat_map in J. destruct J as (q & I & D). unfold deliver in D. destruct (p_sig q =? sig); [|destruct D].
  destruct (dm (p_id q) (p_body q)) eqn:G; [|destruct D..]. destruct D as [D|[]]. injection D as <- <-. exists q. auto.
Qed.
Lemma in_sent_down pt n p : In (n, p) (sent_down PE u pt) <-> In (ProducerModel.OSend PE u n p true) pt.
Proof.
  unfold sent_down. rewrite in_flat_map. split.
  - intros (o & J & D). destruct o; try destruct D. destruct ok; [|destruct D]. destruct (N.eqb_spec u0 u); [|destruct D].
    destruct D as [D|[]]. injection D as <- <-. subst. exact J.
  - intros J. exists (ProducerModel.OSend PE u n p true). split; [exact J|]. cbn. rewrite N.eqb_refl. left. reflexivity.
Qed.
Lemma in_sent_up ct n p : In (n, p) (sent_up CE ct) <-> exists a, In (ConsumerModel.XSend CE a n p true) ct.
Proof.
  unfold sent_up. rewrite in_flat_map. split.
  - intros (o & J & D). destruct o; try destruct D. destruct ok; [|destruct D]. destruct D as [D|[]]. injection D as <- <-. eauto.
  - intros (a & J). exists (ConsumerModel.XSend CE a n p true). split; [exact J|]. left. reflexivity.
Qed.
Lemma forall2_in {A B} (R : A -> B -> Prop) l k y : Forall2 R l k -> In y k -> exists x, In x l /\ R x y.
Proof. induction 1 as [|a b l k W F IH]; intros []; [subst; exists a; cbn; auto|]. destruct IH as (x & J & Q); auto. exists x. cbn. auto. Qed.

(** ** The invariant *)
Notation handled_by := (handled_by PE u).
Lemma handled_by_app a b : handled_by (a ++ b) = handled_by a ++ handled_by b.
Proof. apply flat_map_app. Qed.

Notation up_deliver := (deliver (ProducerModel.e_get PE) (ProducerModel.e_sig PE)).

Record inv (y : sys PE CE) (ups downs : list packet) : Prop := mkInv {
  i_run : ConsumerModel.runs CE (y_ls _ _ y) (ConsumerModel.start CE) = Some (y_c _ _ y, y_ct _ _ y);
  i_pol : polite (y_ct _ _ y);
  i_downs : down_packets PE CE K (sent_down PE u (y_pt _ _ y)) downs;
  i_down : PropConsumerLife.delivered CE (y_ls _ _ y) ++ y_downs _ _ y = stream downs;
  i_ups : up_packets PE CE K (sent_up CE (y_ct _ _ y)) ups;
  i_up : exists gone, gone ++ y_ups _ _ y = stream ups;
  i_good : SystemServer.Good PE u (y_pt _ _ y);
  i_idle : SystemServer.idle PE u (y_pt _ _ y);
  i_hand : exists rest, flat_map up_deliver ups = handled_by (y_pt _ _ y) ++ rest;
  i_serv : y_run _ _ y = true -> exists B j,
    SystemServer.at_ease PE u (SystemServer.holds PE B) (y_pt _ _ y) (y_p _ _ y) /\
    (j <= length ups)%nat /\ handled_by (y_pt _ _ y) = flat_map up_deliver (firstn j ups) /\
    ((forall ok, ~ In (ProducerModel.ODisc PE u ok) (y_pt _ _ y)) -> B ++ y_ups _ _ y = stream (skipn j ups) /\ at_rest B (skipn j ups))
}.

Lemma inv_exec y ups downs : inv y ups downs -> ConsumerSpec.exec CE (y_ct _ _ y).
Proof. intros I. exists (y_ls _ _ y), (y_c _ _ y). apply I. Qed.

(** every message taken by the consumer was sent by the producer *)
Lemma taken_sent y ups downs h m : inv y ups downs -> In (ConsumerModel.XIn CE h m) (y_ct _ _ y) ->
  exists n p, In (ProducerModel.OSend PE u n p true) (y_pt _ _ y) /\
    ConsumerModel.x_get CE (fst (k_down PE CE K p)) (snd (k_down PE CE K p)) = Ok m.
Proof.
  intros I J. destruct (down_ok _ _ (i_downs _ _ _ I)) as (OK & GOOD).
  destruct (PropConsumerLife.reading CE downs [] OK (goods_calm _ _ _ GOOD) incomplete_nil _ _ _ (y_downs _ _ y) (i_run _ _ _ I)) as (j & _ & _ & R & _).
  { rewrite app_nil_r. apply I. }
  assert (W : In (h, m) (flat_map (deliver (ConsumerModel.x_get CE) (ConsumerModel.x_sig CE)) (firstn j downs))).
  { rewrite <- R. apply in_app_iff. left. unfold PropConsumerLife.read. apply in_flat_map. exists (ConsumerModel.XIn CE h m). split; [exact J|]. left. reflexivity. }
  destruct (in_flat_deliver _ _ _ _ _ W) as (q & Q & _ & G).
  assert (Q' : In q downs) by (rewrite <- (firstn_skipn j downs); apply in_app_iff; auto).
  destruct (forall2_in _ _ _ _ (i_downs _ _ _ I) Q') as ([n p] & S & ts & ->). cbn [frame p_id p_body fst snd] in G.
  exists n, p. split; [apply in_sent_down; exact S|exact G].
Qed.

Lemma taken_confirm y ups downs h m : inv y ups downs -> In (ConsumerModel.XIn CE h m) (y_ct _ _ y) -> ConsumerModel.x_confirm CE m = true ->
  exists n, In (ProducerModel.OSend PE u n ProducerModel.PConfirm true) (y_pt _ _ y).
Proof.
  intros I J C. destruct (taken_sent _ _ _ _ _ I J) as (n & p & S & G). destruct (y_down _ _ _ COMPAT p) as (_ & _ & m' & G' & D).
  rewrite G in G'. injection G' as <-. exists n. destruct p; try exact S; destruct D as (D & _); congruence.
Qed.
Lemma taken_self y ups downs h m : inv y ups downs -> In (ConsumerModel.XIn CE h m) (y_ct _ _ y) -> ConsumerModel.x_self CE m <> None ->
  exists n v, In (ProducerModel.OSend PE u n (ProducerModel.PSelf v) true) (y_pt _ _ y).
Proof.
  intros I J C. destruct (taken_sent _ _ _ _ _ I J) as (n & p & S & G). destruct (y_down _ _ _ COMPAT p) as (_ & _ & m' & G' & D).
  rewrite G in G'. injection G' as <-. destruct p; try (destruct D as (_ & D & _); congruence). eauto.
Qed.
Lemma taken_hash y ups downs h m : inv y ups downs -> In (ConsumerModel.XIn CE h m) (y_ct _ _ y) -> ConsumerModel.x_hash CE m = Some None ->
  exists n, In (ProducerModel.OSend PE u n (ProducerModel.PHash true) true) (y_pt _ _ y).
Proof.
  intros I J C. destruct (taken_sent _ _ _ _ _ I J) as (n & p & S & G). destruct (y_down _ _ _ COMPAT p) as (_ & _ & m' & G' & D).
  rewrite G in G'. injection G' as <-. destruct p.
  - destruct D as (_ & D & _). congruence.
  - destruct D as (_ & _ & e & D & W). rewrite C in D. injection D as <-. exists n.
    destruct valid; [exact S|]. destruct W as (W & _). discriminate (W eq_refl).
  - destruct D as (_ & _ & D). congruence.
  - destruct D as (_ & _ & D). congruence.
  - destruct D as (_ & _ & D). congruence.
  - destruct D as (_ & _ & D). congruence.
Qed.

(** ** What the producer knows when a chunk of [u] arrives *)
Lemma bytes_sent y ups downs : inv y ups downs -> y_ups _ _ y <> [] -> sent_up CE (y_ct _ _ y) <> [].
Proof.
  intros I N Z. destruct (i_up _ _ _ I) as (gone & Q). pose proof (i_ups _ _ _ I) as F. rewrite Z in F. inversion F; subst ups.
  cbn in Q. apply app_eq_nil in Q. apply N, Q.
Qed.

Section Knows.
Variables (y : sys PE CE) (ups downs : list packet) (c : ProducerModel.consumer PE).
Hypothesis I : inv y ups downs.
Hypothesis FL : SystemServer.flags PE u (y_pt _ _ y) c.

Lemma knows n p : In (n, p) (sent_up CE (y_ct _ _ y)) ->
  ProducerModel.c_conf PE c = true /\
  match p with
  | ConsumerModel.PSelf _ => True
  | ConsumerModel.PHash _ => ProducerModel.has_key PE c = true
  | ConsumerModel.PUser _ _ _ => ProducerModel.c_hash PE c = true
  end.
Proof.
  intros J. apply in_sent_up in J. destruct J as (a & J). pose proof (inv_exec _ _ _ I) as X.
  destruct (sent_in _ X (i_pol _ _ _ I) _ _ _ _ J) as ((h & m & A & C) & D). split.
  - destruct (taken_confirm _ _ _ _ _ I A C) as (k & S). eapply SystemServer.g_conf; eauto.
  - destruct p; [exact Logic.I| |].
    + destruct D as (h' & m' & A' & C'). destruct (taken_self _ _ _ _ _ I A' C') as (k & v & S). eapply SystemServer.g_self; eauto.
    + destruct D as (h' & m' & A' & C'). destruct (taken_hash _ _ _ _ _ I A' C') as (k & S). eapply SystemServer.g_hash; eauto.
Qed.

Lemma knows_fine h m : In (h, m) (flat_map up_deliver ups) -> SystemServer.fine PE (ProducerModel.has_key PE c) (ProducerModel.c_hash PE c) m.
Proof.
  intros J. destruct (in_flat_deliver _ _ _ _ _ J) as (q & Q & _ & G).
  destruct (forall2_in _ _ _ _ (i_ups _ _ _ I) Q) as ([n p] & S & ts & ->). cbn [frame p_id p_body fst snd] in G.
  destruct (y_up _ _ _ COMPAT p) as (_ & _ & m' & G' & D). rewrite G in G'. injection G' as <-.
  destruct (knows n p S) as (_ & W). unfold SystemServer.fine. destruct p.
  - left. exact D.
  - right. left. destruct D. auto.
  - right. right. destruct D. auto.
Qed.
End Knows.

(** ** Lists *)
Lemma skipn_app_le {A} j (a b : list A) : (j <= length a)%nat -> skipn j (a ++ b) = skipn j a ++ b.
Proof. intros L. rewrite skipn_app. replace (j - length a)%nat with O by lia. reflexivity. Qed.
Lemma firstn_app_le {A} j (a b : list A) : (j <= length a)%nat -> firstn j (a ++ b) = firstn j a.
Proof. intros L. rewrite firstn_app. replace (j - length a)%nat with O by lia. cbn. apply app_nil_r. Qed.
Lemma wire_pos q : 0 < blen (wire q).
Proof. rewrite wire_blen. lia. Qed.

(** ** Only chunks of [u] make the producer handle messages of [u] *)
Lemma aliens_unhandled t : Forall (SystemServer.alien PE u) t -> handled_by t = [].
Proof.
  induction 1 as [|o t A F IH]; [reflexivity|]. unfold SystemModel.handled_by in *. cbn [flat_map]. rewrite IH, app_nil_r.
  destruct o; try reflexivity. destruct (N.eqb_spec u0 u); [|reflexivity]. elim (A e).
Qed.
Lemma mute_unhandled t : ProducerStop.handled PE t = [] -> handled_by t = [].
Proof.
  induction t as [|o t IH]; [reflexivity|]. unfold ProducerStop.handled, SystemModel.handled_by in *. cbn [flat_map]. intros W.
  apply app_eq_nil in W. destruct W as (W1 & W2). rewrite (IH W2), app_nil_r. destruct o; try reflexivity. discriminate W1.
Qed.
Definition unhandled {A} (m : ProducerModel.P PE A) : Prop := forall s, ProducerProofs.wp PE m s (fun t _ _ => handled_by t = []).
Lemma fits_unhandled {A} (m : ProducerModel.P PE A) : SystemServer.fits PE u m -> unhandled m.
Proof. intros F s. eapply ProducerProofs.wp_mono; [apply F|]. cbv beta. intros t s' r (W & _). apply aliens_unhandled. exact W. Qed.
Lemma muted_unhandled {A} (m : ProducerModel.P PE A) : ProducerStop.mute PE m -> unhandled m.
Proof. intros F s. eapply ProducerProofs.wp_mono; [apply F|]. cbv beta. intros t s' r W. apply mute_unhandled. exact W. Qed.

Lemma step_unhandled e : apart u e -> unhandled (ProducerModel.step PE e).
Proof.
  intros Ap. destruct e; cbn [apart ProducerModel.step] in *.
  5: { apply fits_unhandled. apply SystemServer.fits_bind; [apply SystemServer.fits_received; exact Ap|]. intros _. apply SystemServer.fits_ret. }
  all: apply muted_unhandled.
  - apply ProducerStop.mute_bind; [apply ProducerStop.mute_calm, ProducerProofs.calm_world|]. intros ok.
    apply ProducerStop.mute_bind; [apply ProducerStop.mute_emit; reflexivity|]. intros _.
    destruct ok; apply ProducerStop.mute_calm; [apply ProducerProofs.calm_ret|apply ProducerProofs.calm_stop].
  - apply ProducerStop.mute_ret.
  - apply ProducerStop.mute_bind; [|intros; apply ProducerStop.mute_ret].
    apply ProducerStop.mute_bind; [apply ProducerStop.mute_calm, ProducerProofs.calm_look|]. intros [c|].
    + apply ProducerStop.mute_calm, ProducerProofs.calm_stop.
    + apply ProducerStop.mute_bind; [apply ProducerStop.mute_calm, ProducerProofs.calm_get_tab|]. intros t.
      apply ProducerStop.mute_bind; [apply ProducerStop.mute_calm, ProducerProofs.calm_world|]. intros bs.
      apply ProducerStop.mute_bind; [apply ProducerStop.mute_emit; reflexivity|]. intros _.
      apply ProducerStop.mute_bind; [apply ProducerStop.mute_calm, ProducerProofs.calm_emit_event|]. intros _ s. reflexivity.
  - apply ProducerStop.mute_bind; [|intros; apply ProducerStop.mute_ret].
    apply ProducerStop.mute_bind; [apply ProducerStop.mute_calm, ProducerProofs.calm_look|]. intros [c|]; [|apply ProducerStop.mute_ret].
    apply ProducerStop.mute_bind; [intros s; reflexivity|]. intros _.
    apply ProducerStop.mute_bind; [apply ProducerStop.mute_calm, ProducerProofs.calm_get_tab|]. intros t.
    apply ProducerStop.mute_bind; [apply ProducerStop.mute_calm, ProducerProofs.calm_world|]. intros bs.
    apply ProducerStop.mute_bind; [apply ProducerStop.mute_emit; reflexivity|]. intros _.
    apply ProducerStop.mute_bind; [apply ProducerStop.mute_calm, ProducerProofs.calm_emit_event|]. intros _. apply ProducerStop.mute_ret.
  - apply ProducerStop.mute_bind; [destruct u0; [apply ProducerStop.mute_calm, ProducerProofs.calm_ident_at|apply ProducerStop.mute_ret]|]. intros i.
    apply ProducerStop.mute_bind; [apply ProducerStop.mute_calm, ProducerProofs.calm_emit_error|]. intros _. apply ProducerStop.mute_ret.
  - apply ProducerStop.mute_bind; [destruct u0; [apply ProducerStop.mute_calm, ProducerProofs.calm_ident_at|apply ProducerStop.mute_ret]|]. intros i.
    apply ProducerStop.mute_bind; [apply ProducerStop.mute_calm, ProducerProofs.calm_emit_error|]. intros _. apply ProducerStop.mute_ret.
  - apply ProducerStop.mute_bind; [apply ProducerStop.mute_calm, ProducerProofs.calm_emit_error|]. intros _. apply ProducerStop.mute_ret.
  - apply ProducerStop.mute_bind; [apply ProducerStop.mute_calm, ProducerProofs.calm_get_tab|]. intros t.
    apply ProducerStop.mute_bind; [apply ProducerStop.mute_calm, ProducerProofs.calm_world|]. intros bs.
    apply ProducerStop.mute_bind; [apply ProducerStop.mute_emit; reflexivity|]. intros _.
    apply ProducerStop.mute_bind; [apply ProducerStop.mute_calm, ProducerProofs.calm_emit_event|]. intros _. apply ProducerStop.mute_ret.
  - apply ProducerStop.mute_bind; [apply ProducerStop.mute_calm, ProducerProofs.calm_look|]. intros [c|].
    + apply ProducerStop.mute_bind; [apply ProducerStop.mute_upd|]. intros _.
      apply ProducerStop.mute_bind; [apply ProducerStop.mute_emit; reflexivity|]. intros _. apply ProducerStop.mute_ret.
    + apply ProducerStop.mute_bind; [apply ProducerStop.mute_calm, ProducerProofs.calm_emit_error|]. intros _. apply ProducerStop.mute_ret.
  - apply ProducerStop.mute_bind; [apply ProducerStop.mute_calm, ProducerProofs.calm_look|]. intros [c|].
    + apply ProducerStop.mute_bind; [apply ProducerStop.mute_upd|]. intros _.
      apply ProducerStop.mute_bind; [apply ProducerStop.mute_emit; reflexivity|]. intros _. apply ProducerStop.mute_ret.
    + apply ProducerStop.mute_bind; [apply ProducerStop.mute_calm, ProducerProofs.calm_emit_error|]. intros _. apply ProducerStop.mute_ret.
  - apply ProducerStop.mute_bind; [|intros; apply ProducerStop.mute_ret].
    intros s. unfold ProducerProofs.wp, ProducerModel.confirm. destruct (ProducerModel.s_conf PE s) as [|v q]; [reflexivity|].
    match goal with |- context [ProducerModel.bindp PE ?m ?f ?z] => set (zz := z); assert (W : ProducerStop.mute PE (ProducerModel.bindp PE m f)) end; [|exact (W zz)].
    apply ProducerStop.mute_bind; [apply ProducerStop.mute_calm, ProducerProofs.calm_look|]. intros [c|].
    + apply ProducerStop.mute_bind; [apply ProducerStop.mute_upd|]. intros _.
      apply ProducerStop.mute_bind; [apply ProducerStop.mute_calm, ProducerProofs.calm_try_pack|]. intros [|].
      * apply ProducerStop.mute_bind; [apply ProducerStop.mute_send|]. intros [|]; apply ProducerStop.mute_calm; [apply ProducerProofs.calm_ret|apply ProducerProofs.calm_stop].
      * apply ProducerStop.mute_calm, ProducerProofs.calm_stop.
    + apply ProducerStop.mute_calm, ProducerProofs.calm_emit_error.
  - apply ProducerStop.mute_ret.
Qed.

(** ** The invariant holds *)
Lemma holds_disc B s tr : SystemServer.at_ease PE u (SystemServer.holds PE B) tr s -> exists c, ProducerModel.find PE u (ProducerModel.s_tab PE s) = Some c /\ SystemServer.flags PE u tr c /\
  (ProducerModel.c_disc PE c = false -> ProducerModel.c_buf PE c = mkBuf B []).
Proof. intros ((c & F & Fl & Hc) & _). exists c. auto. Qed.

Lemma polite_app t1 t2 : polite t1 -> (forall l1 a k l2, t2 = l1 ++ ConsumerModel.XCall CE a k :: l2 ->
    match k with ConsumerModel.KReq _ _ _ | ConsumerModel.KBeacon _ _ _ => In (ConsumerModel.XEmit CE (ConsumerModel.EConnected CE)) t1 | _ => True end) -> polite (t1 ++ t2).
Proof.
  intros P1 P2 v1 a k v2 Q. destruct (app_eq_app _ _ _ _ Q) as (l & [(Q1 & Q2)|(Q1 & Q2)]).
  - destruct l as [|o l].
    + rewrite app_nil_r in Q1. cbn in Q2. pose proof (P2 [] a k v2 (eq_sym Q2)) as W. rewrite Q1 in W. exact W.
    + cbn in Q2. injection Q2 as <- Q2. pose proof (P1 v1 a k l Q1) as W. exact W.
  - pose proof (P2 l a k v2 Q2) as W. rewrite Q1. destruct k; auto; apply in_app_iff; auto.
Qed.

Lemma sent_down_app a b : sent_down PE u (a ++ b) = sent_down PE u a ++ sent_down PE u b.
Proof. apply flat_map_app. Qed.
Lemma sent_up_app a b : sent_up CE (a ++ b) = sent_up CE a ++ sent_up CE b.
Proof. apply flat_map_app. Qed.

Lemma inv_fresh y : fresh PE CE u y -> inv y [] [].
Proof.
  destruct y as [p run pt c ls ct yu yd]. intros (R & P & F & C & L & T & U & D). cbn [y_run y_pt y_p y_c y_ls y_ct y_ups y_downs] in *. subst.
  split; cbn [y_run y_pt y_p y_c y_ls y_ct y_ups y_downs].
  - reflexivity.
  - intros [|x t1] a k t2 Q; discriminate Q.
  - constructor.
  - reflexivity.
  - constructor.
  - exists []. reflexivity.
  - apply SystemServer.Good_nil.
  - intros m (pre & h & Q & _). destruct pre; discriminate Q.
  - exists []. reflexivity.
  - intros _. exists [], O. split; [|split; [cbn; lia|split; [reflexivity|split; [reflexivity|exact I]]]].
    split; [|intros m (pre & h & Q & _); destruct pre; discriminate Q].
    exists (ProducerModel.consumer_new PE). split; [exact F|]. split; [|intros _; reflexivity].
    split; try (intros; contradiction); try discriminate.
    split; [discriminate|]. intros (ok & []).
Qed.

(** a producer's step, given what it does to [u] *)
Lemma inv_server y ups downs t s' r qs yu' :
  inv y ups downs -> y_run _ _ y = true -> down_packets PE CE K (sent_down PE u t) qs ->
  (exists gone, gone ++ yu' = stream ups) ->
  SystemServer.Good PE u (y_pt _ _ y ++ t) ->
  (exists rest, flat_map up_deliver ups = handled_by (y_pt _ _ y ++ t) ++ rest) ->
  match r with
  | ProducerModel.PGo _ => exists B j, SystemServer.at_ease PE u (SystemServer.holds PE B) (y_pt _ _ y ++ t) s' /\
     (j <= length ups)%nat /\ handled_by (y_pt _ _ y ++ t) = flat_map up_deliver (firstn j ups) /\
     ((forall ok, ~ In (ProducerModel.ODisc PE u ok) (y_pt _ _ y ++ t)) -> B ++ yu' = stream (skipn j ups) /\ at_rest B (skipn j ups))
  | _ => SystemServer.idle PE u (y_pt _ _ y ++ t)
  end ->
  inv (mkSys PE CE s' (goes r) (y_pt _ _ y ++ t) (y_c _ _ y) (y_ls _ _ y) (y_ct _ _ y) yu' (y_downs _ _ y ++ stream qs)) ups (downs ++ qs).
Proof.
  intros I R D U G Hn S. split; cbn [y_run y_pt y_p y_c y_ls y_ct y_ups y_downs]; auto; try apply I.
  - rewrite sent_down_app. apply Forall2_app; [apply I|exact D].
  - rewrite app_assoc, (i_down _ _ _ I), stream_app. reflexivity.
  - destruct r; auto. destruct S as (B & j & (_ & S) & _). exact S.
  - destruct r as [b|e|]; try discriminate. intros _. exact S.
Qed.

Definition quiet (t : list (ConsumerModel.out CE)) : bool :=
  forallb (fun o => match o with ConsumerModel.XCall _ _ _ => false | _ => true end) t.
Lemma quiet_app a b : quiet (a ++ b) = quiet a && quiet b. Proof. apply forallb_app. Qed.

Lemma fails_quiet a k e s : quiet (snd (ConsumerModel.fails CE a k e s)) = true.
Proof. destruct k; reflexivity. Qed.
Lemma request_quiet a k n p s : quiet (snd (ConsumerModel.request CE a k n p s)) = true.
Proof. unfold ConsumerModel.request. destruct (ConsumerModel.api_up CE s); [reflexivity|apply fails_quiet]. Qed.
Lemma ask_quiet a k c sg s : quiet (snd (ConsumerModel.ask CE a k c sg s)) = true.
Proof. unfold ConsumerModel.ask. destruct (ConsumerModel.api_up CE s); [reflexivity|apply fails_quiet]. Qed.
Lemma dispatch_quiet m s : quiet (snd (ConsumerModel.dispatch CE m s)) = true.
Proof. unfold ConsumerModel.dispatch. destruct (ConsumerModel.x_broadcast CE m); reflexivity. Qed.
Lemma not_accepted_quiet m s : quiet (snd (ConsumerModel.not_accepted CE m s)) = true.
Proof.
  unfold ConsumerModel.not_accepted. destruct (ConsumerModel.emit CE (ConsumerModel.EError CE ConsumerModel.XPending) s) as (s1, t) eqn:Q. injection Q as <- <-.
  pose proof (dispatch_quiet m (ConsumerModel.set_emit CE (ConsumerModel.s_emit CE s ++ [ConsumerModel.EError CE ConsumerModel.XPending]) s)) as D.
  destruct (ConsumerModel.dispatch CE m _) as (s2, t2). cbn [snd] in *. rewrite quiet_app, D. reflexivity.
Qed.

Lemma run_quiet a ok s r : ConsumerModel.run_act CE a ok s = Some r -> quiet (snd r) = true.
Proof.
  unfold ConsumerModel.run_act. destruct (ConsumerModel.act CE a (ConsumerModel.s_acts CE s)) as [[k sg]|]; [|discriminate].
  assert (Z : forall x y : ConsumerModel.st CE * list (ConsumerModel.out CE), quiet (snd x) = true -> Some x = Some y -> quiet (snd y) = true) by (intros x y Q R; injection R as <-; exact Q).
  destruct sg.
  1: apply Z; destruct k; try apply ask_quiet; try apply fails_quiet; destruct ok; [apply request_quiet|apply fails_quiet].
  all: try (destruct (ConsumerModel.has_sender CE a s); [discriminate|apply Z, fails_quiet]).
  - apply Z, ask_quiet.
  - apply Z; destruct k; try apply fails_quiet; (destruct ok; [apply request_quiet|apply fails_quiet]).
  - apply Z; destruct k; try reflexivity.
    + destruct (ConsumerModel.x_self CE m); [|reflexivity]. destruct ok; [apply request_quiet|reflexivity].
    + destruct (ConsumerModel.x_hash CE m) as [[x|]|]; reflexivity.
  - apply Z; destruct k; try apply fails_quiet; reflexivity.
Qed.

Lemma api_quiet c ok s r : ConsumerModel.api_cmd CE c ok s = Some r -> quiet (snd r) = true.
Proof.
  assert (Z : forall x y : ConsumerModel.st CE * list (ConsumerModel.out CE), quiet (snd x) = true -> Some x = Some y -> quiet (snd y) = true) by (intros x y Q R; injection R as <-; exact Q).
  destruct c; cbn [ConsumerModel.api_cmd].
  - destruct (ConsumerModel.pfind n (ConsumerModel.s_pend CE s)); [apply Z; reflexivity|]. destruct ok; apply Z; reflexivity.
  - destruct (ConsumerModel.pfind n (ConsumerModel.s_pend CE s)).
    + destruct (ConsumerModel.act CE n0 (ConsumerModel.s_acts CE s)) as [[k []]|]; try (apply Z; reflexivity).
      cbn [ConsumerModel.s_msg ConsumerModel.go ConsumerModel.set_acts ConsumerModel.set_api]. destruct (ConsumerModel.s_msg CE _) as [| |h m0 [b|]|]; apply Z; reflexivity.
    + destruct (ConsumerModel.s_msg CE s) as [| |h m0 [b|]|]; apply Z; reflexivity.
  - destruct (ConsumerModel.msg_up CE s); apply Z; reflexivity.
  - destruct (ConsumerModel.act CE a (ConsumerModel.s_acts CE s)) as [[k []]|]; apply Z; reflexivity.
  - destruct (ConsumerModel.s_shut CE s); try (apply Z; reflexivity). destruct (Nat.ltb _ 2); [apply Z; reflexivity|discriminate].
Qed.

(** only a call of the application is a call *)
Lemma fire_quiet l c r : ConsumerModel.fire CE l c = Some r -> quiet (snd r) = true \/ exists k, l = ConsumerModel.LCall CE k /\ snd r = [ConsumerModel.XCall CE (ConsumerModel.s_next CE c) k].
Proof.
  assert (Z : forall x y : ConsumerModel.st CE * list (ConsumerModel.out CE), quiet (snd x) = true -> Some x = Some y -> quiet (snd y) = true) by (intros x y Q R; injection R as <-; exact Q).
  destruct l; cbn [ConsumerModel.fire].
  { destruct (ConsumerModel.user_kind CE k); [|discriminate]. intros R. injection R as <-. right. exists k. auto. }
  all: intros F; left; revert F.
  - destruct (ConsumerModel.act CE a (ConsumerModel.s_acts CE c)) as [[k sg]|]; [|discriminate]. destruct (ConsumerModel.user_kind CE k); [|discriminate]. apply Z. reflexivity.
  - apply Z. reflexivity.
  - apply run_quiet.
  - destruct (ConsumerModel.act CE a (ConsumerModel.s_acts CE c)) as [[[] []]|]; try discriminate; apply Z; reflexivity.
  - destruct (ConsumerModel.api_up CE c); [|discriminate]. destruct (ConsumerModel.s_q CE c) as [|q0 q]; [discriminate|]. apply api_quiet.
  - destruct (ConsumerModel.api_up CE c && ConsumerModel.s_cancel CE c); [|discriminate]. apply Z. reflexivity.
  - destruct (ConsumerModel.s_msg CE c); try discriminate. apply Z. destruct e; try reflexivity. cbn [ConsumerModel.client_event].
    destruct (chunk (ConsumerModel.x_get CE) (ConsumerModel.x_sig CE) (ConsumerModel.s_buf CE c) data) as [[|er|] b]; reflexivity.
  - destruct (ConsumerModel.s_msg CE c); try discriminate. apply Z. reflexivity.
  - destruct (ConsumerModel.s_msg CE c); try discriminate. apply Z. unfold ConsumerModel.next_msg. destruct (next (ConsumerModel.s_buf CE c)) as [[[h m]|] b]; [|reflexivity].
    destruct (ConsumerModel.x_confirm CE m); [reflexivity|]. destruct (ConsumerModel.api_up CE c); [reflexivity|].
    match goal with |- context [ConsumerModel.not_accepted CE m ?s] => pose proof (not_accepted_quiet m s) as N; destruct (ConsumerModel.not_accepted CE m s) end. exact N.
  - destruct (ConsumerModel.s_msg CE c) as [| |h m [[|]|]|]; try discriminate.
    + apply Z. reflexivity. + apply Z, dispatch_quiet. + destruct (ConsumerModel.api_up CE c); [discriminate|]. apply Z, not_accepted_quiet.
  - destruct (ConsumerModel.s_msg CE c); try discriminate. destruct (ConsumerModel.s_qauth CE c) as [|x q]; [discriminate|]. apply Z.
    destruct x as [[v|e]|a]; cbn [ConsumerModel.auth_msg]; [destruct (ConsumerModel.x_uuid CE v); reflexivity|reflexivity|].
    destruct (ConsumerModel.act CE a _) as [[k []]|]; reflexivity.
  - destruct (ConsumerModel.s_msg CE c); try discriminate. destruct (ConsumerModel.s_cancel CE c); [|discriminate]. apply Z. reflexivity.
  - destruct (ConsumerModel.s_cli CE c); [discriminate|]. destruct ok; apply Z; reflexivity.
  - destruct (ConsumerModel.s_cli CE c); [discriminate|]. destruct (ConsumerModel.s_cancel CE c); [|discriminate]. apply Z. reflexivity.
  - destruct (ConsumerModel.s_shut CE c); try discriminate. destruct (ConsumerModel.s_qshut CE c); [discriminate|]. apply Z. reflexivity.
  - destruct (ConsumerModel.s_shut CE c); try discriminate. destruct (ConsumerModel.s_cancel CE c); [|discriminate]. apply Z. reflexivity.
  - destruct (ConsumerModel.s_api CE c); [|discriminate]. destruct (ConsumerModel.s_msg CE c); try discriminate. destruct (ConsumerModel.s_cli CE c); [|discriminate].
    destruct (ConsumerModel.s_done CE c); [discriminate|]. apply Z. reflexivity.
  - repeat match goal with |- context [match ?x with _ => _ end] => destruct x; try discriminate end; apply Z; reflexivity.
  - repeat match goal with |- context [match ?x with _ => _ end] => destruct x; try discriminate end; apply Z; reflexivity.
  - repeat match goal with |- context [match ?x with _ => _ end] => destruct x; try discriminate end; apply Z; reflexivity.
  - repeat match goal with |- context [match ?x with _ => _ end] => destruct x; try discriminate end; apply Z; reflexivity.
Qed.

Lemma fire_call l c c' t : ConsumerModel.fire CE l c = Some (c', t) ->
  forall l1 a k l2, t = l1 ++ ConsumerModel.XCall CE a k :: l2 -> l = ConsumerModel.LCall CE k.
Proof.
  intros F l1 a k l2 Q. assert (J : In (ConsumerModel.XCall CE a k) t) by (rewrite Q; apply in_elt).
  destruct (fire_quiet _ _ _ F) as [W|(k' & -> & W)]; cbn [snd] in W.
  - unfold quiet in W. rewrite forallb_forall in W. discriminate (W _ J).
  - rewrite W in J. destruct J as [J|[]]. injection J as _ <-. reflexivity.
Qed.

(** a step of the consumer *)
Lemma inv_client y ups downs l s' t qs yd' :
  inv y ups downs -> ConsumerModel.fire CE l (y_c _ _ y) = Some (s', t) -> up_packets PE CE K (sent_up CE t) qs ->
  match l with
  | ConsumerModel.LCall _ (ConsumerModel.KReq _ _ _) | ConsumerModel.LCall _ (ConsumerModel.KBeacon _ _ _) => In (ConsumerModel.XEmit CE (ConsumerModel.EConnected CE)) (y_ct _ _ y)
  | _ => True
  end ->
  PropConsumerLife.delivered CE [l] ++ yd' = y_downs _ _ y ->
  inv (mkSys PE CE (y_p _ _ y) (y_run _ _ y) (y_pt _ _ y) s' (y_ls _ _ y ++ [l]) (y_ct _ _ y ++ t) (y_ups _ _ y ++ stream qs) yd') (ups ++ qs) downs.
Proof.
  intros I F U O D. split; cbn [y_run y_pt y_p y_c y_ls y_ct y_ups y_downs]; auto; try apply I.
  - rewrite (ConsumerSpec.runs_app CE _ _ _ _ _ (i_run _ _ _ I)). cbn [ConsumerModel.runs]. rewrite F, app_nil_r. reflexivity.
  - apply polite_app; [apply I|]. intros l1 a k l2 Q. pose proof (fire_call _ _ _ _ F _ _ _ _ Q) as ->. exact O.
  - unfold PropConsumerLife.delivered. rewrite flat_map_app. rewrite <- app_assoc.
    change (flat_map (fun l : ConsumerModel.label CE => match l with ConsumerModel.LEvent _ (ConsumerModel.InBinary d) => d | _ => [] end) [l]) with (PropConsumerLife.delivered CE [l]).
    rewrite D. apply I.
  - rewrite sent_up_app. apply Forall2_app; [apply I|exact U].
  - destruct (i_up _ _ _ I) as (gone & Q). exists gone. rewrite stream_app, app_assoc, Q. reflexivity.
  - destruct (i_hand _ _ _ I) as (rest & Q). exists (rest ++ flat_map up_deliver qs). rewrite flat_map_app, Q, app_assoc. reflexivity.
  - intros R. destruct (i_serv _ _ _ I R) as (B & j & A & L & Hn & S). exists B, j. split; [exact A|].
    split; [rewrite app_length; lia|]. split; [rewrite firstn_app_le by exact L; exact Hn|]. intros ND.
    destruct (S ND) as (S1 & S2). rewrite skipn_app_le by exact L. rewrite stream_app. split; [rewrite app_assoc, S1; reflexivity|].
    destruct (skipn j ups) as [|q l0]; [|exact S2]. cbn in S1. apply app_eq_nil in S1. destruct S1 as (-> & _).
    destruct qs as [|q qs]; [exact Logic.I|]. cbn [at_rest app]. pose proof (wire_pos q). unfold blen at 1. cbn. lia.
Qed.

Lemma forall_firstn {A} (P : A -> Prop) n l : Forall P l -> Forall P (firstn n l).
Proof. intros F. revert n. induction F; intros [|n]; cbn; auto. Qed.

Lemma handled_is t l : ProducerStop.handled PE t = map (pair u) l -> handled_by t = l.
Proof.
  revert l. induction t as [|o t IH]; intros l Q; [destruct l; [reflexivity|discriminate Q]|].
  unfold ProducerStop.handled, SystemModel.handled_by in *. cbn [flat_map] in *. destruct o; cbn [app] in *; auto.
  destruct l as [|[h0 m0] l]; cbn [map] in Q; [discriminate Q|]. injection Q as -> -> -> Q. rewrite N.eqb_refl. cbn [app]. f_equal. auto.
Qed.

Lemma deliver_firstn k qs : Forall (good (ProducerModel.e_get PE) (ProducerModel.e_sig PE)) qs ->
  firstn k (flat_map up_deliver qs) = flat_map up_deliver (firstn k qs) /\ length (flat_map up_deliver qs) = length qs.
Proof.
  intros G. revert k. induction G as [|q qs (G1 & m & G2) G IH]; intros k; [rewrite !firstn_nil; auto|].
  assert (D : up_deliver q = [(hdr q, m)]) by (unfold deliver; rewrite G1, N.eqb_refl, G2; reflexivity).
  cbn [flat_map]. rewrite D. cbn [app length]. rewrite (proj2 (IH O)). split; [|reflexivity].
  destruct k; [reflexivity|]. cbn [firstn flat_map]. rewrite D, (proj1 (IH k)). reflexivity.
Qed.

Lemma received_goes d s t s' r : ProducerModel.step PE (ProducerModel.VReceived u d) s = (t, (s', r)) -> r <> ProducerModel.PGo false.
Proof.
  intros St. assert (W : ProducerProofs.wp PE (ProducerModel.step PE (ProducerModel.VReceived u d)) s (fun _ _ r => r <> ProducerModel.PGo false)).
  { cbn [ProducerModel.step]. apply ProducerProofs.wp_bind. unfold ProducerProofs.wp. destruct (ProducerModel.process_received_data PE u d s) as (t1 & s1 & r1).
    destruct r1; [|discriminate|discriminate]. cbn. discriminate. }
  apply (ProducerProofs.wp_elim _ _ _ _ _ _ _ W St).
Qed.

Lemma received_deaf d s c t s' r : ProducerModel.find PE u (ProducerModel.s_tab PE s) = Some c -> ProducerModel.c_conf PE c = true -> ProducerModel.c_disc PE c = true ->
  ProducerModel.step PE (ProducerModel.VReceived u d) s = (t, (s', r)) -> t = [].
Proof.
  intros Fc Cc Dc. cbn [ProducerModel.step]. unfold ProducerModel.process_received_data, ProducerModel.bindp, ProducerModel.look. rewrite Fc. cbv beta iota. rewrite Cc, Dc. cbn. congruence.
Qed.

Lemma inv_move y ups downs y' : inv y ups downs -> move PE CE K (patient CE) u y y' -> exists ups' downs', inv y' ups' downs'.
Proof.
  intros I M. destruct M as [y e t s' r qs R Ap St Dn|y n t s' r qs R Ln St Dn|y n x ok qs t Dn|y l s' t qs O O2 F U|y n s' t qs l Ln F U].
  - exists ups, (downs ++ qs). destruct (i_serv _ _ _ I R) as (B & j & A & L & Hn & S).
    pose proof (SystemServer.H_step PE u B e Ap (y_pt _ _ y) (y_p _ _ y) (i_good _ _ _ I) A) as W.
    pose proof (step_unhandled e Ap (y_p _ _ y)) as Z.
    apply (ProducerProofs.wp_elim _ _ _ _ _ _ _ W) in St as W'. apply (ProducerProofs.wp_elim _ _ _ _ _ _ _ Z) in St as Z'. cbv beta in W', Z'.
    destruct W' as (G & Q). apply inv_server; auto.
    + apply I.
    + rewrite handled_by_app, Z', app_nil_r. apply I.
    + destruct r; auto. exists B, j. split; [exact Q|]. split; [exact L|]. rewrite handled_by_app, Z', app_nil_r. split; [exact Hn|].
      intros ND. apply S. intros ok J. apply (ND ok). apply in_app_iff. auto.
  - exists ups, (downs ++ qs). destruct (i_serv _ _ _ I R) as (B & j & A & L & Hn & S).
    destruct (i_up _ _ _ I) as (gone & GU).
    assert (NE : y_ups _ _ y <> []) by (intros Q; rewrite Q in Ln; cbn in Ln; lia).
    destruct A as ((c & Fc & Fl & Hc) & Id).
    assert (CF : ProducerModel.c_conf PE c = true).
    { pose proof (bytes_sent _ _ _ I NE) as SN. destruct (sent_up CE (y_ct _ _ y)) as [|[k p] sl] eqn:SQ; [congruence|].
      apply (knows _ _ _ c I Fl k p). rewrite SQ. left. reflexivity. }
    destruct (up_ok _ _ (i_ups _ _ _ I)) as (OK & GOOD).
    (* what the buffer makes of the chunk *)
    assert (CH : exists B' k, (k <= length (skipn j ups))%nat /\
      ((forall ok, ~ In (ProducerModel.ODisc PE u ok) (y_pt _ _ y)) ->
       chunk (ProducerModel.e_get PE) (ProducerModel.e_sig PE) (mkBuf B []) (firstn n (y_ups _ _ y)) = (COk, mkBuf B' (flat_map up_deliver (firstn k (skipn j ups)))) /\
       B' ++ skipn n (y_ups _ _ y) = stream (skipn k (skipn j ups)) /\ at_rest B' (skipn k (skipn j ups)))).
    { destruct (ProducerModel.c_disc PE c) eqn:DC.
      { exists [], O. split; [lia|]. intros ND. destruct (proj1 (SystemServer.g_disc _ _ _ _ Fl) DC) as (ok & J). elim (ND ok J). }
      assert (ND : forall ok, ~ In (ProducerModel.ODisc PE u ok) (y_pt _ _ y)).
      { intros ok J. assert (ProducerModel.c_disc PE c = true) by (apply (SystemServer.g_disc _ _ _ _ Fl); eauto). congruence. }
      destruct (S ND) as (S1 & S2).
      destruct (chunk_spec (ProducerModel.e_get PE) (ProducerModel.e_sig PE) (skipn j ups) B [] (firstn n (y_ups _ _ y)) (skipn n (y_ups _ _ y)) [])
        as (o & b' & q' & k & C & Kl & C1 & C2 & NP & CS).
      { apply Forall_skipn; exact OK. } { apply Forall_skipn, goods_calm; exact GOOD. } { exact incomplete_nil. }
      { rewrite <- app_assoc, firstn_skipn, app_nil_r. exact S1. }
      rewrite app_nil_r in C1. cbn [app] in C2. exists b', k. split; [exact Kl|]. intros _. destruct CS as [(-> & _ & AR)|(_ & CB)].
      - rewrite C, C2. auto.
      - exfalso. rewrite count_bad_good in CB; [discriminate CB|]. apply Forall_forall. intros z Hz. rewrite Forall_forall in GOOD. apply GOOD.
        rewrite <- (firstn_skipn j ups). apply in_app_iff. right. rewrite <- (firstn_skipn k (skipn j ups)). apply in_app_iff. auto. }
    destruct CH as (B' & k & Kl & CH). rewrite skipn_length in Kl.
    assert (FINE : Forall (fun x => SystemServer.fine PE (ProducerModel.has_key PE c) (ProducerModel.c_hash PE c) (snd x)) (flat_map up_deliver (firstn k (skipn j ups)))).
    { apply Forall_forall. intros [h m] J. cbn [snd]. apply (knows_fine _ _ _ c I Fl h m).
      rewrite <- (firstn_skipn j ups), flat_map_app. apply in_app_iff. right.
      rewrite <- (firstn_skipn k (skipn j ups)), flat_map_app. apply in_app_iff. left. exact J. }
    assert (W : ProducerProofs.wp PE (ProducerModel.step PE (ProducerModel.VReceived u (firstn n (y_ups _ _ y)))) (y_p _ _ y) (fun t s' r =>
        SystemServer.Good PE u (y_pt _ _ y ++ t) /\ match r with ProducerModel.PGo a => SystemServer.at_ease PE u (SystemServer.holds PE B') (y_pt _ _ y ++ t) s' | _ => SystemServer.idle PE u (y_pt _ _ y ++ t) end)).
    { apply (SystemServer.H_step_received PE u (firstn n (y_ups _ _ y)) (ProducerModel.c_hash PE c) B' c (flat_map up_deliver (firstn k (skipn j ups))) (y_pt _ _ y) (y_p _ _ y) (i_good _ _ _ I)).
      split; [exact Fc|]. split; [exact Fl|]. split; [exact Id|]. split; [exact CF|]. split; [auto|]. intros DC.
      split; [|exact FINE]. rewrite (Hc DC). apply CH. intros ok J.
      assert (ProducerModel.c_disc PE c = true) by (apply (SystemServer.g_disc _ _ _ _ Fl); eauto). congruence. }
    apply (ProducerProofs.wp_elim _ _ _ _ _ _ _ W) in St as W'. cbv beta in W'. destruct W' as (G & Q).
    (* what is handled *)
    assert (HD : exists k', (k' <= k)%nat /\ handled_by t = flat_map up_deliver (firstn k' (skipn j ups)) /\
       ((forall ok, ~ In (ProducerModel.ODisc PE u ok) (y_pt _ _ y)) -> r = ProducerModel.PGo true -> k' = k)).
    { destruct (ProducerModel.c_disc PE c) eqn:DC.
      { exists O. split; [lia|]. split.
        - rewrite (received_deaf _ _ _ _ _ _ Fc CF DC St). reflexivity.
        - intros ND. destruct (proj1 (SystemServer.g_disc _ _ _ _ Fl) DC) as (ok & J). elim (ND ok J). }
      destruct CH as (CQ & _ & _).
      { intros ok J. assert (ProducerModel.c_disc PE c = true) by (apply (SystemServer.g_disc _ _ _ _ Fl); eauto). congruence. }
      rewrite <- (Hc DC) in CQ.
      destruct (ProducerStop.received_handled PE _ _ _ _ _ _ _ _ Fc CF DC CQ St) as (k0 & H1 & H2). cbn [rb_queue] in H1, H2.
      assert (GK : Forall (good (ProducerModel.e_get PE) (ProducerModel.e_sig PE)) (firstn k (skipn j ups))) by (apply forall_firstn, Forall_skipn; exact GOOD).
      pose proof (handled_is _ _ H1) as H3. rewrite (proj1 (deliver_firstn k0 _ GK)), firstn_firstn in H3.
      exists (Nat.min k0 k). split; [lia|]. split; [exact H3|]. intros _ Rt. specialize (H2 Rt). apply (f_equal (@length _)) in H2.
      rewrite firstn_length, (proj2 (deliver_firstn O _ GK)), firstn_length, skipn_length in H2. lia. }
    destruct HD as (k' & Kl' & HB & HK).
    assert (HJ : handled_by (y_pt _ _ y ++ t) = flat_map up_deliver (firstn (j + k') ups)).
    { rewrite handled_by_app, Hn, HB, <- flat_map_app. f_equal.
      rewrite <- (firstn_skipn j ups) at 3. rewrite firstn_app. rewrite (firstn_all2 (firstn j ups)); rewrite firstn_length; [|lia].
      f_equal. f_equal. lia. }
    apply inv_server; auto.
    + exists (gone ++ firstn n (y_ups _ _ y)). rewrite <- app_assoc, firstn_skipn. exact GU.
    + exists (flat_map up_deliver (skipn (j + k') ups)). rewrite HJ, <- flat_map_app, firstn_skipn. reflexivity.
    + destruct r as [b|e|]; auto. exists B', (j + k')%nat. split; [exact Q|]. split; [lia|]. split; [exact HJ|]. intros ND.
      assert (ND' : forall ok, ~ In (ProducerModel.ODisc PE u ok) (y_pt _ _ y)) by (intros ok J; apply (ND ok); apply in_app_iff; auto).
      assert (Rt : ProducerModel.PGo b = ProducerModel.PGo true) by (destruct b; [reflexivity|elim (received_goes _ _ _ _ _ St eq_refl)]).
      rewrite (HK ND' Rt). destruct (CH ND') as (_ & C1 & C2). rewrite <- skipn_skipn. split; [exact C1|exact C2].
  - exists ups, (downs ++ qs).
    assert (AL : Forall (SystemServer.alien PE u) t) by (repeat constructor).
    assert (NI : forall m, SystemServer.due PE u (y_pt _ _ y) m -> exists o t', t = o :: t' /\ SystemServer.served PE u m o) by (intros m Dm; elim (i_idle _ _ _ I m Dm)).
    destruct (SystemServer.aliens_good PE u t (y_pt _ _ y) (i_good _ _ _ I) AL NI) as (G & Id).
    assert (HB : handled_by t = []) by reflexivity.
    split; cbn [y_run y_pt y_p y_c y_ls y_ct y_ups y_downs]; auto; try apply I.
    + rewrite sent_down_app. apply Forall2_app; [apply I|exact Dn].
    + rewrite app_assoc, (i_down _ _ _ I), stream_app. reflexivity.
    + rewrite handled_by_app, HB, app_nil_r. apply I.
    + intros R. destruct (i_serv _ _ _ I R) as (B & j & ((c & Fc & Fl & Hc) & _) & L & Hn & S). exists B, j. split.
      { split; [|exact Id]. exists c. split; [exact Fc|]. split; [apply SystemServer.flags_alien; assumption|exact Hc]. }
      split; [exact L|]. rewrite handled_by_app, HB, app_nil_r. split; [exact Hn|]. intros ND. apply S. intros ok' J. apply (ND ok'). apply in_app_iff. auto.
  - exists (ups ++ qs), downs. apply inv_client; auto.
    destruct l; auto. destruct e; auto. elim O.
  - exists (ups ++ qs), downs. apply inv_client; auto.
    + exact Logic.I.
    + cbn. rewrite app_nil_r. apply firstn_skipn.
Qed.

Theorem inv_reach y0 y : fresh PE CE u y0 -> reach PE CE K (patient CE) u y0 y -> exists ups downs, inv y ups downs.
Proof.
  intros F R. induction R as [|y1 y2 R (ups & downs & I) M]; [exists [], []; apply inv_fresh; exact F|]. eapply inv_move; eauto.
Qed.
End Proofs.
