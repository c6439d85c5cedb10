(** A Rust producer and a TypeScript consumer that have come to rest: what the
    producer has answered and what the consumer has read (C103). *)
From Coq Require Import List NArith Arith Bool Lia.
From Verif Require Import Bytes WireModel FrameModel FrameProofs TsModel TsReader.
From Verif Require ProducerProofs ProducerSeg ProducerStop SystemModel SystemServer SystemProofs SystemAnswers ProducerMore.
From Verif Require TsClientModel TsClientProofs TsClientTrace PropTsClient TsSystemModel TsSystemProofs PropTsSystem.
From Verif Require Import ProducerModel CrossModel CrossProofs.
Import ListNotations.
Open Scope N_scope.

Section Rest.
Variable PE : env.
Variable CE : TsClientModel.tenv.
Variable K : xcodec PE.
Hypothesis OK : compatible PE CE K.
Variable u : N.
Local Notation tev := (TsClientModel.tev (TsClientModel.t_msg CE)).
Local Notation xsys := (xsys PE CE).
Local Notation r_p := (r_p PE CE). Local Notation r_run := (r_run PE CE). Local Notation r_pt := (r_pt PE CE).
Local Notation r_c := (r_c PE CE). Local Notation r_cl := (r_cl PE CE). Local Notation r_ct := (r_ct PE CE).
Local Notation r_ups := (r_ups PE CE). Local Notation r_downs := (r_downs PE CE).
Local Notation handled_by := (SystemModel.handled_by PE u).
Local Notation sent_down := (SystemModel.sent_down PE u).
Local Notation sent_up := (TsSystemModel.sent_up CE).
Local Notation wp := (ProducerProofs.wp PE).
Local Ltac fields := cbn [CrossModel.r_p CrossModel.r_run CrossModel.r_pt CrossModel.r_c CrossModel.r_cl CrossModel.r_ct CrossModel.r_ups CrossModel.r_downs] in *.

(** ** The producer answers a self key as long as it has accepted no hashes *)

(** code that handles no message of [u] and leaves alone whether its hashes are accepted *)
Definition mute {A} (m : P PE A) : Prop := forall s c, find PE u (s_tab PE s) = Some c ->
  wp m s (fun t s' _ => (forall h x, ~ In (OHandle PE u h x) t) /\ exists c', find PE u (s_tab PE s') = Some c' /\ c_hash PE c' = c_hash PE c).

Lemma mute_bind {A B} (m : P PE A) (f : A -> P PE B) : mute m -> (forall a, mute (f a)) -> mute (bindp PE m f).
Proof.
  intros Hm Hf s c F. apply ProducerProofs.wp_bind. eapply ProducerProofs.wp_mono; [apply (Hm s c F)|]. cbv beta.
  intros t s1 [a|e|] (N1 & c1 & F1 & C1); [|eauto|eauto].
  eapply ProducerProofs.wp_mono; [apply (Hf a s1 c1 F1)|]. cbv beta. intros t2 s2 r2 (N2 & c2 & F2 & C2). split.
  - intros h x J. apply in_app_iff in J as [J|J]; [exact (N1 _ _ J)|exact (N2 _ _ J)].
  - exists c2. split; [exact F2|congruence].
Qed.
Lemma mute_fits {A} (m : P PE A) : SystemServer.fits PE u m -> mute m.
Proof.
  intros H s c F. eapply ProducerProofs.wp_mono; [apply H|]. cbv beta. intros t s' r (AL & Q). split; [|exists c; rewrite Q; auto].
  intros h x J. rewrite Forall_forall in AL. exact (AL _ J eq_refl).
Qed.
Lemma mute_ret {A} (a : A) : mute (ret PE a).
Proof. apply mute_fits, SystemServer.fits_ret. Qed.
Lemma mute_stop {A} e : mute (@stop PE A e).
Proof. apply mute_fits, SystemServer.fits_stop. Qed.
Lemma mute_emit o : (forall h x, o <> OHandle PE u h x) -> mute (emit PE o).
Proof. intros N s c F. split; [|exists c; auto]. intros h x [J|[]]. exact (N _ _ J). Qed.
Lemma mute_world {A} (f : _ -> _ * A) : mute (world PE f).
Proof. apply mute_fits, SystemServer.fits_world. Qed.
Lemma mute_look v : mute (look PE v).
Proof. apply mute_fits, SystemServer.fits_look. Qed.
Lemma mute_upd v f : (forall c, c_hash PE (f c) = c_hash PE c) -> mute (upd PE v f).
Proof.
  intros H s c F. unfold ProducerProofs.wp, upd. destruct (find PE v (s_tab PE s)) as [d|] eqn:Fv; cbn [fst snd s_tab]; (split; [intros h x []|]).
  - destruct (N.eqb_spec v u) as [->|NE].
    + exists (f c). split; [|apply H]. rewrite F in Fv. injection Fv as <-. eapply ProducerProofs.find_put_same. exact F.
    + exists c. split; [|reflexivity]. rewrite ProducerProofs.find_put_other by exact NE. exact F.
  - exists c. auto.
Qed.
Lemma mute_send v n p : mute (send PE v n p).
Proof. apply mute_bind; [apply mute_world|]. intros ok. apply mute_bind; [apply mute_emit; discriminate|]. intros _. apply mute_ret. Qed.
Lemma mute_try_pack v n p : mute (try_pack PE v n p).
Proof. apply mute_bind; [apply mute_world|]. intros [|]; [apply mute_ret|]. apply mute_bind; [apply mute_emit; discriminate|]. intros _. apply mute_ret. Qed.
Lemma mute_pack_send v n p : mute (pack_send PE v n p).
Proof. apply mute_bind; [apply mute_try_pack|]. intros [|]; [apply mute_send|apply mute_ret]. Qed.
Lemma mute_disconnect v : mute (disconnect PE v).
Proof.
  apply mute_bind; [apply mute_look|]. intros [c|]; [|apply mute_ret]. destruct (c_disc PE c); [apply mute_ret|].
  apply mute_bind; [apply mute_upd; auto|]. intros _. apply mute_bind; [apply mute_world|]. intros ok.
  apply mute_bind; [apply mute_emit; discriminate|]. intros _. destruct ok; [apply mute_ret|apply mute_stop].
Qed.
Lemma mute_emit_error e w i : mute (emit_error PE e w i).
Proof.
  apply mute_bind; [apply mute_world|]. intros ok. apply mute_bind; [apply mute_emit; discriminate|]. intros _.
  destruct ok; [apply mute_ret|apply mute_stop].
Qed.
Lemma mute_ident_err v e : mute (bindp PE (ident_at PE v) (fun i => emit_error PE e (Some v) i)).
Proof. apply mute_bind; [apply mute_fits, SystemServer.fits_ident_at|]. intros i. apply mute_emit_error. Qed.
Lemma mute_expel v e : mute (expel PE v e).
Proof. apply mute_bind; [apply mute_disconnect|]. intros _. apply mute_ident_err. Qed.
Lemma mute_responsing v : mute (responsing_err PE v).
Proof.
  apply mute_bind; [destruct (e_cs PE); auto using mute_ret, mute_disconnect|]. intros _.
  destruct (e_cs PE); auto using mute_ret, mute_ident_err.
Qed.
Lemma mute_not_assigned v : mute (not_assigned PE v).
Proof.
  apply mute_bind; [destruct (e_is PE); auto using mute_ret, mute_disconnect|]. intros _.
  destruct (e_is PE); auto using mute_ret, mute_ident_err.
Qed.
Lemma mute_dispatch v c h m : mute (dispatch PE v c h m).
Proof.
  unfold dispatch. destruct (e_request PE m) as [r|].
  - apply mute_bind; [apply mute_fits, SystemServer.fits_process_request|]. intros [|]; [apply mute_ret|apply mute_responsing].
  - destruct (e_beacon PE m) as [b|]; [|apply mute_ret].
    apply mute_bind; [apply mute_fits, SystemServer.fits_process_beacon|]. intros [|]; [apply mute_ret|apply mute_emit_error].
Qed.

(** the hashes of [u] have been handled; a self key has been answered at once *)
Definition hashy (t : list (out PE)) : Prop := exists h m, In (OHandle PE u h m) t /\ e_hash PE m <> None.
Definition told (h : header) (post : list (out PE)) : Prop :=
  (exists rest, post = OUnpacked PE (Some u) (h_seq h) (PSelf u) :: rest) \/ (exists ok rest, post = OSend PE u (h_seq h) (PSelf u) ok :: rest).
Definition greets (c : consumer PE) (t : list (out PE)) : Prop := forall pre h m post, t = pre ++ OHandle PE u h m :: post ->
  e_self PE m <> None -> c_hash PE c = false -> ~ hashy pre -> told h post.
Definition warm {A} (m : P PE A) : Prop := forall s c, find PE u (s_tab PE s) = Some c ->
  wp m s (fun t s' _ => greets c t /\ exists c', find PE u (s_tab PE s') = Some c' /\ (c_hash PE c' = true -> c_hash PE c = true \/ hashy t)).

Lemma hashy_app t t' : hashy (t ++ t') <-> hashy t \/ hashy t'.
Proof.
  split.
  - intros (h & m & J & H). apply in_app_iff in J as [J|J]; [left|right]; exists h, m; auto.
  - intros [(h & m & J & H)|(h & m & J & H)]; exists h, m; (split; [apply in_app_iff; auto|exact H]).
Qed.
Lemma told_app h t t' : told h t -> told h (t ++ t').
Proof. intros [(r & ->)|(ok & r & ->)]; [left|right; exists ok]; exists (r ++ t'); reflexivity. Qed.
Lemma greets_app c c1 t t' : (c_hash PE c1 = true -> c_hash PE c = true \/ hashy t) -> greets c t -> greets c1 t' -> greets c (t ++ t').
Proof.
  intros H G1 G2 pre h m post Q S C N. destruct (SystemAnswers.split_app _ _ _ _ _ Q) as [(l & E)|(l & E & E')].
  - assert (Z : post = l ++ t').
    { rewrite E, <- app_assoc in Q. apply app_inv_head in Q. injection Q as <-. reflexivity. }
    rewrite Z. apply told_app. exact (G1 _ _ _ _ E S C N).
  - subst pre. rewrite hashy_app in N. apply (G2 _ _ _ _ E' S); [|tauto].
    destruct (c_hash PE c1); [|reflexivity]. destruct (H eq_refl) as [W|W]; [congruence|tauto].
Qed.
Lemma warm_bind {A B} (m : P PE A) (f : A -> P PE B) : warm m -> (forall a, warm (f a)) -> warm (bindp PE m f).
Proof.
  intros Hm Hf s c F. apply ProducerProofs.wp_bind. eapply ProducerProofs.wp_mono; [apply (Hm s c F)|]. cbv beta.
  intros t s1 [a|e|] (G1 & c1 & F1 & C1); [|eauto|eauto].
  eapply ProducerProofs.wp_mono; [apply (Hf a s1 c1 F1)|]. cbv beta. intros t2 s2 r2 (G2 & c2 & F2 & C2). split.
  - eapply greets_app; eauto.
  - exists c2. split; [exact F2|]. rewrite hashy_app. intros W. destruct (C2 W) as [W'|W']; [destruct (C1 W')|]; auto.
Qed.
Lemma greets_none c t : (forall h m, ~ In (OHandle PE u h m) t) -> greets c t.
Proof. intros N pre h m post ->. elim (N h m). apply in_elt. Qed.
Lemma warm_mute {A} (m : P PE A) : mute m -> warm m.
Proof.
  intros H s c F. eapply ProducerProofs.wp_mono; [apply (H s c F)|]. cbv beta. intros t s' r (N & c' & F' & C). split; [apply greets_none; exact N|].
  exists c'. split; [exact F'|]. rewrite C. auto.
Qed.

Lemma pack_send_one n p s : wp (pack_send PE u n p) s (fun t _ r =>
  (exists rest, t = OUnpacked PE (Some u) n p :: rest) \/ (exists ok rest, t = OSend PE u n p ok :: rest)).
Proof.
  unfold pack_send, try_pack. apply ProducerProofs.wp_bind. apply ProducerProofs.wp_bind. unfold ProducerProofs.wp at 1, world.
  match goal with |- context [let '(_, _) := ?x in _] => destruct x as [w b] end. cbn [fst snd].
  destruct b.
  - unfold ProducerProofs.wp at 1, ret. cbn [fst snd app]. unfold send. apply ProducerProofs.wp_bind. unfold ProducerProofs.wp at 1, world.
    cbn [s_w]. destruct (w_send PE w u n p) as [w' ok]. cbn [fst snd app]. apply ProducerStop.wp_bind_emit.
    unfold ProducerProofs.wp, ret. cbn [fst snd app]. right. eauto.
  - apply ProducerStop.wp_bind_emit. unfold ProducerProofs.wp, ret. cbn [fst snd app]. left. eauto.
Qed.

(** one message of [u] *)
Lemma warm_message asg hk h m : forall s c, find PE u (s_tab PE s) = Some c ->
  wp (handle PE u asg hk h m c) s
   (fun t s' _ => greets c (OHandle PE u h m :: t) /\
      exists c', find PE u (s_tab PE s') = Some c' /\ (c_hash PE c' = true -> c_hash PE c = true \/ hashy (OHandle PE u h m :: t))).
Proof.
  intros s c F.
  assert (HEAD : forall t, (forall h' m', ~ In (OHandle PE u h' m') t) -> (e_self PE m <> None -> c_hash PE c = false -> told h t) -> greets c (OHandle PE u h m :: t)).
  { intros t N T pre h' m' post Q S C _. destruct pre as [|o pre].
    - cbn [app] in Q. injection Q as <- <- <-. auto.
    - cbn [app] in Q. injection Q as _ Q. elim (N h' m'). rewrite Q. apply in_elt. }
  assert (QUIET : forall {A} (x : P PE A), mute x -> (e_self PE m <> None -> c_hash PE c = false -> False) ->
    wp x s (fun t s' _ => greets c (OHandle PE u h m :: t) /\ exists c', find PE u (s_tab PE s') = Some c' /\ (c_hash PE c' = true -> c_hash PE c = true \/ hashy (OHandle PE u h m :: t)))).
  { intros A x M W. eapply ProducerProofs.wp_mono; [apply (M s c F)|]. cbv beta. intros t s' r (N & c' & F' & C). split; [apply HEAD; [exact N|intros; exfalso; auto]|].
    exists c'. split; [exact F'|]. rewrite C. auto. }
  unfold handle.
  match goal with |- context [match e_self PE m with Some k => if _ then ?x else _ | None => _ end] => assert (O : (e_self PE m <> None -> c_hash PE c = false -> False) ->
    wp x s (fun t s' _ => greets c (OHandle PE u h m :: t) /\ exists c', find PE u (s_tab PE s') = Some c' /\ (c_hash PE c' = true -> c_hash PE c = true \/ hashy (OHandle PE u h m :: t)))) end.
  { intros W. destruct (e_hash PE m) as [pw|] eqn:HH.
    - assert (HY : forall t, hashy (OHandle PE u h m :: t)) by (intros t; exists h, m; split; [left; reflexivity|congruence]).
      assert (REST : mute (bindp PE (pack_send PE u (h_seq h) (PHash (hash_valid PE pw))) (fun ok =>
        bindp PE (if ok then ret PE tt else responsing_err PE u) (fun _ => if hash_valid PE pw then ret PE tt else expel PE u (ENoKey u))))).
      { apply mute_bind; [apply mute_pack_send|]. intros ok. apply mute_bind; [destruct ok; [apply mute_ret|apply mute_responsing]|]. intros _.
        destruct (hash_valid PE pw); [apply mute_ret|apply mute_expel]. }
      destruct (hash_valid PE pw).
      + eapply ProducerStop.wp_bind_upd; [exact F|].
        match goal with |- ProducerProofs.wp PE _ ?z _ => set (z1 := z); assert (F1 : find PE u (s_tab PE z1) = Some (set_hash PE c)) by (eapply ProducerProofs.find_put_same; exact F) end.
        clearbody z1. eapply ProducerProofs.wp_mono; [apply (REST z1 _ F1)|]. cbv beta. intros t s' r (N & c' & F' & C).
        split; [apply HEAD; [exact N|intros; exfalso; auto]|]. exists c'. split; [exact F'|]. intros _. right. apply HY.
      + apply QUIET; [|exact W]. apply mute_bind; [apply mute_ret|]. intros _. exact REST.
    - apply QUIET; [|exact W]. destruct (negb (c_hash PE c)); [apply mute_expel|]. destruct (negb hk); [apply mute_expel|].
      destruct (negb asg && _); [apply mute_not_assigned|apply mute_dispatch]. }
  destruct (e_self PE m) as [k|] eqn:SS; [|apply O; congruence]. destruct (c_hash PE c) eqn:CH; [apply O; congruence|]. clear O QUIET.
  eapply ProducerStop.wp_bind_upd; [exact F|].
  match goal with |- ProducerProofs.wp PE _ ?z _ => set (z1 := z); assert (F1 : find PE u (s_tab PE z1) = Some (set_key PE k true c)) by (eapply ProducerProofs.find_put_same; exact F) end.
  clearbody z1. apply ProducerProofs.wp_bind.
  pose proof (mute_pack_send u (h_seq h) (PSelf u) z1 _ F1) as M1. pose proof (pack_send_one (h_seq h) (PSelf u) z1) as M2.
  unfold ProducerProofs.wp in M1, M2 |- * at 1. destruct (pack_send PE u (h_seq h) (PSelf u) z1) as [t1 [s1 r1]]. cbn [fst snd] in *.
  destruct M1 as (N1 & c1 & Fc1 & C1).
  assert (TT : told h t1) by exact M2.
  destruct r1 as [ok|e|].
  - assert (M3 : mute (if ok then ret PE tt else responsing_err PE u)) by (destruct ok; [apply mute_ret|apply mute_responsing]).
    eapply ProducerProofs.wp_mono; [apply (M3 s1 c1 Fc1)|]. cbv beta. intros t2 s2 r2 (N2 & c2 & F2 & C2). split.
    + apply HEAD; [|intros _ _; apply told_app; exact TT]. intros h' m' J. apply in_app_iff in J as [J|J]; [exact (N1 _ _ J)|exact (N2 _ _ J)].
    + exists c2. split; [exact F2|]. rewrite C2, C1. cbn [set_key c_hash]. congruence.
  - split; [apply HEAD; auto|]. exists c1. split; [exact Fc1|]. rewrite C1. cbn [set_key c_hash]. congruence.
  - split; [apply HEAD; auto|]. exists c1. split; [exact Fc1|]. rewrite C1. cbn [set_key c_hash]. congruence.
Qed.

Lemma warm_loop asg hk ms : warm (loop PE u asg hk ms).
Proof.
  induction ms as [|[h m] ms IH]; cbn [loop]; [apply warm_mute, mute_ret|].
  intros s c F. apply ProducerStop.wp_bind_look. rewrite F. apply ProducerStop.wp_bind_emit. apply ProducerProofs.wp_bind.
  eapply ProducerProofs.wp_mono; [apply (warm_message asg hk h m s c F)|]. cbv beta. intros t s1 [a|e|] (G1 & c1 & F1 & C1); [|eauto|eauto].
  eapply ProducerProofs.wp_mono; [apply (IH s1 c1 F1)|]. cbv beta. intros t2 s2 r2 (G2 & c2 & F2 & C2). rewrite app_comm_cons. split.
  - eapply greets_app; eauto.
  - exists c2. split; [exact F2|]. rewrite hashy_app. intros W. destruct (C2 W) as [W'|W']; [destruct (C1 W')|]; auto.
Qed.
Lemma warm_received v d : warm (process_received_data PE v d).
Proof.
  destruct (N.eqb_spec v u) as [->|NE]; [|apply warm_mute, mute_fits, SystemServer.fits_received; exact NE].
  apply warm_bind; [apply warm_mute, mute_look|]. intros [c|]; [|apply warm_mute, mute_responsing].
  destruct (negb (c_conf PE c)); [apply warm_mute, mute_expel|].
  destruct (c_disc PE c); [apply warm_mute, mute_ret|]. destruct (chunk _ _ _ _) as [[|e|] b].
  - apply warm_bind; [apply warm_mute, mute_upd; auto|]. intros _. apply warm_loop.
  - apply warm_mute, mute_bind; [apply mute_upd; auto|]. intros _. apply mute_responsing.
  - apply warm_mute, mute_fits, SystemServer.fits_panic.
Qed.
Lemma mute_confirm : mute (confirm PE).
Proof.
  intros s c F. unfold confirm. destruct (s_conf PE s) as [|v q] eqn:SC.
  { unfold ProducerProofs.wp. rewrite SC. cbn [fst snd]. split; [intros h x []|]. exists c. auto. }
  unfold ProducerProofs.wp. rewrite SC.
  match goal with |- context [bindp PE ?m ?f ?z] => assert (W : mute (bindp PE m f)); [|apply (W z c); exact F] end.
  apply mute_bind; [apply mute_look|]. intros [d|]; [|apply mute_emit_error].
  apply mute_bind; [apply mute_upd; auto|]. intros _. apply mute_bind; [apply mute_try_pack|]. intros [|]; [|apply mute_stop].
  apply mute_bind; [apply mute_send|]. intros [|]; [apply mute_ret|apply mute_stop].
Qed.
Lemma mute_set v f o : (forall c, c_hash PE (f c) = c_hash PE c) -> (forall h x, o <> OHandle PE u h x) -> mute (bindp PE (look PE v) (fun c => match c with
  | Some _ => bindp PE (upd PE v f) (fun _ => bindp PE (emit PE o) (fun _ => ret PE true))
  | None => bindp PE (emit_error PE EConsumer (Some v) None) (fun _ => ret PE true) end)).
Proof.
  intros H N. apply mute_bind; [apply mute_look|]. intros [c|].
  - apply mute_bind; [apply mute_upd; exact H|]. intros _. apply mute_bind; [apply mute_emit; exact N|]. intros _. apply mute_ret.
  - apply mute_bind; [apply mute_emit_error|]. intros _. apply mute_ret.
Qed.
Lemma warm_step e : SystemModel.apart u e \/ (exists d, e = VReceived u d) -> warm (step PE e).
Proof.
  intros [Ap|(d & ->)]; [|apply warm_bind; [apply warm_received|intros; apply warm_mute, mute_ret]].
  apply warm_mute. destruct e; cbn [step SystemModel.apart] in *.
  - apply mute_bind; [apply mute_world|]. intros ok. apply mute_bind; [apply mute_emit; discriminate|].
    intros _. destruct ok; [apply mute_ret|apply mute_stop].
  - apply mute_ret.
  - apply mute_bind; [|intros; apply mute_ret]. apply mute_fits, SystemServer.fits_add_connection. exact Ap.
  - apply mute_bind; [|intros; apply mute_ret]. apply mute_fits, SystemServer.fits_remove_connection. exact Ap.
  - apply mute_bind; [|intros; apply mute_ret]. apply mute_fits, SystemServer.fits_received. exact Ap.
  - apply mute_bind; [apply mute_fits, SystemServer.fits_opt_ident|]. intros i.
    apply mute_bind; [apply mute_emit_error|]. intros _. apply mute_ret.
  - apply mute_bind; [apply mute_fits, SystemServer.fits_opt_ident|]. intros i.
    apply mute_bind; [apply mute_emit_error|]. intros _. apply mute_ret.
  - apply mute_bind; [|intros; apply mute_ret]. apply mute_emit_error.
  - apply mute_fits. apply SystemServer.fits_bind; [apply SystemServer.fits_get_tab|]. intros t. apply SystemServer.fits_bind; [apply SystemServer.fits_world|]. intros bs.
    apply SystemServer.fits_bind; [apply SystemServer.fits_emit; exact I|]. intros _. apply SystemServer.fits_bind; [apply SystemServer.fits_emit_event|]. intros _. apply SystemServer.fits_ret.
  - apply mute_set; [auto|discriminate].
  - apply mute_set; [auto|discriminate].
  - apply mute_bind; [apply mute_confirm|]. intros; apply mute_ret.
  - apply mute_ret.
Qed.

(** Along an execution *)
Definition welcoming (t : list (out PE)) : Prop := forall pre h m post, t = pre ++ OHandle PE u h m :: post ->
  e_self PE m <> None -> ~ hashy pre -> told h post.
Lemma welcome_reach A D y0 y : fresh PE CE u y0 -> reach PE CE K A D u y0 y ->
  welcoming (r_pt y) /\ (r_run y = true -> exists c, find PE u (s_tab PE (r_p y)) = Some c /\ (c_hash PE c = true -> hashy (r_pt y))).
Proof.
  intros F R. induction R as [|y1 y2 R (IH & IT) M].
  - destruct F as (_ & -> & F & _). split; [intros [|] ? ? ? Q; discriminate Q|]. intros _. exists (consumer_new PE). split; [exact F|]. discriminate.
  - assert (GO : forall y e t s' r, welcoming (r_pt y) ->
      (r_run y = true -> exists c, find PE u (s_tab PE (r_p y)) = Some c /\ (c_hash PE c = true -> hashy (r_pt y))) ->
      r_run y = true -> SystemModel.apart u e \/ (exists d, e = VReceived u d) -> step PE e (r_p y) = (t, (s', r)) ->
      welcoming (r_pt y ++ t) /\ (SystemModel.goes r = true -> exists c, find PE u (s_tab PE s') = Some c /\ (c_hash PE c = true -> hashy (r_pt y ++ t)))).
    { clear. intros y e t s' r IH IT Rn Ap St. destruct (IT Rn) as (c & Fc & HC). pose proof (warm_step e Ap (r_p y) c Fc) as W.
      apply (ProducerProofs.wp_elim _ _ _ _ _ _ _ W) in St. destruct St as (G & c' & F' & C'). split.
      - assert (Z : greets (consumer_new PE) (r_pt y ++ t)).
        { apply (greets_app _ c); [intros Q; right; auto| |exact G]. intros pre h m post Q S _ N. exact (IH _ _ _ _ Q S N). }
        intros pre h m post Q S N. exact (Z _ _ _ _ Q S eq_refl N).
      - intros _. exists c'. split; [exact F'|]. rewrite hashy_app. intros Q. destruct (C' Q); auto. }
    destruct M as [y e t s' r qs Rn Ap St Dn|y n t s' r qs Rn DD Ln St Dn|y n x ok qs t Dn|y l s' es qs O O2 F' U|y n fuel s' es qs l Ln F' U]; fields; auto.
    + exact (GO y e t s' r IH IT Rn (or_introl Ap) St).
    + exact (GO y _ t s' r IH IT Rn (or_intror (ex_intro _ _ eq_refl)) St).
    + split.
      * assert (Z : greets (consumer_new PE) (r_pt y ++ t)).
        { apply (greets_app _ (consumer_new PE)); [discriminate| |apply greets_none; intros h m [J|[]]; discriminate J]. intros pre h m post Q S _ N. exact (IH _ _ _ _ Q S N). }
        intros pre h m post Q S N. exact (Z _ _ _ _ Q S eq_refl N).
      * intros Rn. destruct (IT Rn) as (c & Fc & HC). exists c. split; [exact Fc|]. rewrite hashy_app. auto.
Qed.

Lemma fut_reach A D y0 y : fresh PE CE u y0 -> reach PE CE K A D u y0 y -> ProducerMore.Fut PE (r_pt y).
Proof.
  intros (_ & F & _) R. induction R as [|y1 y2 R IH M]; [rewrite F; apply ProducerMore.Fut_nil|].
  destruct M as [y e t s' r qs Rn Ap St Dn|y n t s' r qs Rn DD Ln St Dn|y n x ok qs t Dn|y l s' es qs O O2 F' U|y n fuel s' es qs l Ln F' U]; fields; try exact IH; apply ProducerMore.Fut_app; try exact IH.
  - exact (ProducerProofs.wp_elim _ _ _ _ _ _ _ (ProducerMore.fut_step PE e _) St).
  - exact (ProducerProofs.wp_elim _ _ _ _ _ _ _ (ProducerMore.fut_step PE _ _) St).
  - apply ProducerMore.Fut_send, ProducerMore.Fut_nil.
Qed.
End Rest.
