(** The connection invariant of the producer and its preservation. *)
From Coq Require Import List NArith Bool Lia.
From Verif Require Import Bytes WireModel FrameModel ProducerModel ProducerProofs.
Import ListNotations.
Open Scope N_scope.

Section Inv.
Variable E : env.

Notation out := (out E).
Notation st := (st E).
Notation P := (P E).

(** Facts about the part [l] of the trace since consumer [u] connected. *)
Definition confirmed (u : uuid) (l : list out) : Prop :=
  In (OSend E u 0 PConfirm true) l.
Definition hashed (u : uuid) (l : list out) : Prop :=
  exists h m, In (OHandle E u h m) l /\ e_hash E m = Some (e_phash E, e_whash E).
Definition keyed (u : uuid) (l : list out) : Prop :=
  (exists h m k, In (OHandle E u h m) l /\ e_self E m = Some k) \/ In (OSetKey E u) l.
Definition no_disc (u : uuid) (l : list out) : Prop := forall ok, ~ In (ODisc E u ok) l.

(** the application has given the consumer an assigned key *)
Definition assigned (u : uuid) (l : list out) : Prop := In (OSetAssigned E u) l.
Definition strict : bool := match e_is E with IIgnore | ILog => false | _ => true end.

Definition authentic (u : uuid) (tr : list out) : Prop :=
  exists l, since E u tr = Some l /\ confirmed u l /\ hashed u l /\ keyed u l /\
    (strict = true -> assigned u l).

(** neither the start of another message nor an answer *)
Definition unmarked (o : out) : bool :=
  match o with OHandle _ _ _ _ => false | OSend _ _ _ p _ => negb (is_answer p) | _ => true end.

(** the message being handled comes from [u], has sequence [seq] and has not been
    answered *)
Definition cur (u : uuid) (seq : N) (tr : list out) : Prop :=
  exists tr0 h m mid, tr = tr0 ++ OHandle E u h m :: mid /\ seq = h_seq h /\
    forallb unmarked mid = true.

Definition ends_with (o : out) (tr : list out) : Prop := exists tr0, tr = tr0 ++ [o].

(** the consumers shown to a handler *)
Definition sees (ids : list ident) (who : uuid -> Prop) : Prop :=
  NoDup (map i_uuid ids) /\ forall v, In v (map i_uuid ids) <-> who v.

Definition ok_at (tr : list out) (o : out) : Prop :=
  match o with
  | OConnected _ u ids _ => since E u tr = None /\ sees ids (fun v => since E v tr <> None)
  | ODisconnected _ u ids _ =>
    since E u tr <> None /\ sees ids (fun v => v <> u /\ since E v tr <> None)
  | OEvent _ n ids _ => sees ids (fun v => since E v tr <> None)
  | OHandle _ u h m => exists l, since E u tr = Some l /\ confirmed u l
  | OCall _ u r m ids _ =>
    (authentic u tr /\ e_request E m = Some r /\ exists h, ends_with (OHandle E u h m) tr) /\
    sees ids (fun v => since E v tr <> None)
  | OBeacon _ u b m ids _ =>
    (authentic u tr /\ e_beacon E m = Some b /\ exists h, ends_with (OHandle E u h m) tr) /\
    sees ids (fun v => since E v tr <> None)
  | ODisc _ u ok => exists l, since E u tr = Some l /\ no_disc u l
  | OSend _ u seq p ok => is_answer p = true -> cur u seq tr
  | _ => True
  end.

Notation T := (T E ok_at).

Lemma quiet_ok pre o : quiet E o = true -> ok_at pre o.
Proof.
  destruct o; cbn; try discriminate; auto.
  intros H1 H2. rewrite H2 in H1. discriminate.
Qed.

Lemma quiet_unmarked o : quiet E o = true -> unmarked o = true.
Proof. destruct o; cbn; auto. Qed.

(** ** The invariant *)
Definition c_open (u : uuid) (c : consumer E) (tr : list out) : Prop :=
  exists l, since E u tr = Some l /\
    (c_conf E c = true -> confirmed u l) /\ (c_hash E c = true -> hashed u l) /\
    (c_key E c <> None -> keyed u l) /\ (c_disc E c = false -> no_disc u l) /\
    (c_assigned E c <> None -> assigned u l).

Definition INV (tr : list out) (s : st) : Prop :=
  NoDup (map fst (s_tab E s)) /\
  forall u, match find E u (s_tab E s) with
            | Some c => c_open u c tr
            | None => since E u tr = None
            end.

Definition plain (o : out) : bool :=
  match o with OConnected _ _ _ _ | ODisconnected _ _ _ _ => false | _ => true end.

Lemma since_plain u tr o : plain o = true ->
  since E u (tr ++ [o]) = match since E u tr with Some l => Some (l ++ [o]) | None => None end.
Proof. intros H. rewrite since_snoc. destruct o; cbn in H; try discriminate; reflexivity. Qed.

Lemma c_open_snoc u c tr o : plain o = true -> (c_disc E c = false -> forall ok, o <> ODisc E u ok) ->
  c_open u c tr -> c_open u c (tr ++ [o]).
Proof.
  intros Hp Hd (l & Hs & H1 & H2 & H3 & H4 & H5). exists (l ++ [o]).
  rewrite since_plain, Hs by auto. split; [reflexivity|]. split; [|split; [|split; [|split]]].
  - intros H. apply in_or_app. left. exact (H1 H).
  - intros H. destruct (H2 H) as (h & m & Ho & Hh). exists h, m. split; auto. apply in_or_app. auto.
  - intros H. destruct (H3 H) as [(h & m & k & Ho & Hh)|Ho]; [left|right].
    + exists h, m, k. split; auto. apply in_or_app. auto.
    + apply in_or_app. auto.
  - intros H ok Ho. apply in_app_or in Ho. destruct Ho as [Ho|[Ho|[]]].
    + apply (H4 H ok Ho).
    + apply (Hd H ok Ho).
  - intros H. apply in_or_app. left. exact (H5 H).
Qed.

Lemma INV_snoc tr s o : plain o = true ->
  (forall u ok c, o = ODisc E u ok -> find E u (s_tab E s) = Some c -> c_disc E c = true) ->
  INV tr s -> INV (tr ++ [o]) s.
Proof.
  intros Hp Hd [Nd H]. split; auto. intros u. specialize (H u).
  destruct (find E u (s_tab E s)) as [c|] eqn:F.
  - apply c_open_snoc; auto. intros Hc ok ->. rewrite (Hd u ok c) in Hc; auto. discriminate.
  - rewrite since_plain, H by auto. reflexivity.
Qed.

Lemma INV_app_quiet tr s t : forallb (quiet E) t = true -> INV tr s -> INV (tr ++ t) s.
Proof.
  revert tr. induction t as [|o t IH]; intros tr Ht H.
  - rewrite app_nil_r. auto.
  - cbn [forallb] in Ht. apply andb_true_iff in Ht. destruct Ht as [Ho Ht].
    replace (tr ++ o :: t) with ((tr ++ [o]) ++ t) by (rewrite <- app_assoc; reflexivity).
    apply IH; auto. apply INV_snoc; auto.
    + destruct o; cbn in Ho |- *; auto; discriminate.
    + intros u ok c ->. discriminate.
Qed.

Lemma INV_eq tr s s' : s_tab E s' = s_tab E s -> INV tr s -> INV tr s'.
Proof. unfold INV. intros ->. auto. Qed.

Lemma INV_put tr s s' u c : find E u (s_tab E s) <> None -> c_open u c tr ->
  s_tab E s' = put E u c (s_tab E s) -> INV tr s -> INV tr s'.
Proof.
  intros F Ho Ht [Nd H]. split.
  - rewrite Ht, map_fst_put. auto.
  - intros v. rewrite Ht. destruct (N.eq_dec u v) as [<-|Hn].
    + destruct (find E u (s_tab E s)) as [d|] eqn:Fd; [|congruence].
      rewrite (find_put_same E u c _ d Fd). auto.
    + rewrite find_put_other by auto. apply H.
Qed.

Lemma idents_uuid t : map i_uuid (idents E t) = map fst t.
Proof. unfold idents. rewrite map_map. apply map_ext. intros [u c]. reflexivity. Qed.

Lemma INV_sees tr s : INV tr s -> sees (idents E (s_tab E s)) (fun v => since E v tr <> None).
Proof.
  intros [Nd H]. unfold sees. rewrite idents_uuid. split; [exact Nd|]. intros v.
  specialize (H v). destruct (find E v (s_tab E s)) as [c|] eqn:F.
  - split; [|intros _; apply find_In; congruence].
    intros _. destruct H as (l & -> & _). discriminate.
  - split; [|congruence]. intros Hin. apply find_In in Hin. congruence.
Qed.

Lemma stable_INV : stable E INV.
Proof. intros tr s t s' H Ht H1 H2. eapply INV_eq; [exact H1|]. apply INV_app_quiet; auto. Qed.

Lemma stable_and A B : stable E A -> stable E B -> stable E (fun tr s => A tr s /\ B tr s).
Proof. intros HA HB tr s t s' [H1 H2] Ht Ha Hb. split; [eapply HA|eapply HB]; eauto. Qed.

Lemma forallb_unmarked t : forallb (quiet E) t = true -> forallb unmarked t = true.
Proof.
  intros H. apply forallb_forall. intros x Hx. apply quiet_unmarked.
  eapply forallb_forall in H; eauto.
Qed.

Lemma cur_app u seq tr t : forallb unmarked t = true -> cur u seq tr -> cur u seq (tr ++ t).
Proof.
  intros Ht (tr0 & h & m & mid & -> & Hs & Hm). exists tr0, h, m, (mid ++ t).
  rewrite forallb_app, Hm, Ht, <- app_assoc. auto.
Qed.

Lemma stable_cur u seq : stable E (fun tr _ => cur u seq tr).
Proof. intros tr s t s' H Ht _ _. apply cur_app; auto. apply forallb_unmarked. auto. Qed.

(** what the loop over a batch relies on *)
Definition J (u : uuid) (hk : bool) (tr : list out) (s : st) : Prop :=
  INV tr s /\ exists c, find E u (s_tab E s) = Some c /\ c_conf E c = true /\
    (hk = true -> c_key E c <> None).

Lemma stable_tab (F : table E -> Prop) : stable E (fun _ s => F (s_tab E s)).
Proof. intros tr s t s' H _ H1 _. rewrite H1. auto. Qed.

Lemma stable_J u hk : stable E (J u hk).
Proof.
  apply stable_and; [apply stable_INV|].
  apply (stable_tab (fun t => exists c, find E u t = Some c /\ c_conf E c = true /\
    (hk = true -> c_key E c <> None))).
Qed.

(** ** Code without outputs *)
Definition silent {A} (m : P A) : Prop :=
  forall s, wp E m s (fun t s' r => t = [] /\ s_tab E s' = s_tab E s /\ s_conf E s' = s_conf E s).

Definition wstable (Pre : list out -> st -> Prop) : Prop :=
  forall tr s s', Pre tr s -> s_tab E s' = s_tab E s -> s_conf E s' = s_conf E s -> Pre tr s'.

Lemma T_silent {A} Pre (m : P A) : wstable Pre -> silent m -> T Pre m (fun _ => Pre).
Proof.
  intros Hw Hm tr s Hg Hp. eapply wp_mono; [apply Hm|].
  intros t s' r (-> & H1 & H2). rewrite app_nil_r. split; auto. destruct r; eauto.
Qed.

Lemma silent_world {A} (f : _ -> _ * A) : silent (world E f).
Proof. intros s. unfold wp, world. destruct (f (s_w E s)). repeat split. Qed.
Lemma silent_get_tab : silent (get_tab E).
Proof. intros s. repeat split. Qed.
Lemma silent_ret {A} (a : A) : silent (ret E a).
Proof. intros s. repeat split. Qed.
Lemma silent_look u : silent (look E u).
Proof. intros s. repeat split. Qed.

Lemma stable_wstable Pre : stable E Pre -> wstable Pre.
Proof. intros H tr s s' Hp H1 H2. specialize (H tr s [] s' Hp eq_refl H1 H2). rewrite app_nil_r in H. auto. Qed.

Lemma T_cal {A} Pre (m : P A) : stable E Pre -> calm E m -> T Pre m (fun _ => Pre).
Proof. intros. apply T_calm; auto. apply quiet_ok. Qed.

Lemma T_weak {A} (Pre Pre' : list out -> st -> Prop) (m : P A) Post :
  (forall tr s, Pre' tr s -> Pre tr s) -> T Pre m Post -> T Pre' m Post.
Proof. intros H HT. eapply T_conseq; [exact HT|auto|auto]. Qed.

Lemma T_post {A} Pre (m : P A) (Post Post' : A -> list out -> st -> Prop) :
  T Pre m Post -> (forall a tr s, Post a tr s -> Post' a tr s) -> T Pre m Post'.
Proof. intros HT H. eapply T_conseq; [exact HT|auto|auto]. Qed.

Lemma T_ret' {A} (Pre : list out -> st -> Prop) (a : A) (Post : A -> list out -> st -> Prop) :
  (forall tr s, Pre tr s -> Post a tr s) -> T Pre (ret E a) Post.
Proof. intros H. eapply T_post; [apply T_ret|]. intros b tr s [-> Hp]. auto. Qed.

Lemma T_upd (Pre : list out -> st -> Prop) u f (Post : list out -> st -> Prop) :
  (forall tr s c s', Pre tr s -> find E u (s_tab E s) = Some c ->
     s_tab E s' = put E u (f c) (s_tab E s) -> s_conf E s' = s_conf E s -> Post tr s') ->
  (forall tr s, Pre tr s -> find E u (s_tab E s) <> None) ->
  T Pre (upd E u f) (fun _ => Post).
Proof.
  intros H H0 tr s Hg Hp. unfold wp, upd.
  destruct (find E u (s_tab E s)) as [c|] eqn:F.
  - cbn [fst snd]. rewrite app_nil_r. split; auto. eapply H; eauto.
  - exfalso. eapply H0; eauto.
Qed.

Lemma T_emit' (Pre : list out -> st -> Prop) o (Post : list out -> st -> Prop) :
  (forall tr s, Good E ok_at tr -> Pre tr s -> ok_at tr o) ->
  (forall tr s, Pre tr s -> Post (tr ++ [o]) s) ->
  T Pre (emit E o) (fun _ => Post).
Proof.
  intros H1 H2. eapply T_post; [apply T_emit; auto|].
  intros _ tr s (tr0 & -> & Hp). auto.
Qed.

Local Ltac tb := let a := fresh "a" in intros a; cbv beta; try clear a.

(** ** [disconnect] and the error paths *)
Lemma J_find u hk tr s : J u hk tr s -> find E u (s_tab E s) <> None.
Proof. intros [_ (c & F & _)]. congruence. Qed.

Lemma put_find u c d t : find E u t = Some d -> find E u (put E u c t) = Some c.
Proof. apply find_put_same. Qed.

(** [K u F]: the invariant together with a fact about [u]'s entry that no flag
    change of [disconnect] touches *)
Definition K (u : uuid) (F : consumer E -> Prop) (tr : list out) (s : st) : Prop :=
  INV tr s /\ exists c, find E u (s_tab E s) = Some c /\ F c.

Lemma stable_K u F : stable E (K u F).
Proof.
  apply stable_and; [apply stable_INV|].
  apply (stable_tab (fun t => exists c, find E u t = Some c /\ F c)).
Qed.

Lemma T_disconnect u (F : consumer E -> Prop) (Hf : forall c, F c -> F (set_disc E c)) :
  T (K u F) (disconnect E u) (fun _ => K u F).
Proof.
  unfold disconnect.
  eapply T_bind; [apply T_look|]. intros o. cbv beta.
  destruct o as [c|].
  2:{ eapply T_weak with (Pre := K u F); [tauto|]. apply T_ret'. auto. }
  destruct (c_disc E c) eqn:Hd.
  { eapply T_weak with (Pre := K u F); [tauto|]. apply T_ret'. auto. }
  set (Mid := fun (tr : list out) (s : st) => K u F tr s /\
     (exists l, since E u tr = Some l /\ no_disc u l) /\
     (exists d, find E u (s_tab E s) = Some d /\ c_disc E d = true)).
  assert (Sm : stable E Mid).
  { apply stable_and; [apply stable_K|]. apply stable_and.
    - intros tr s t s' (l & Hs & Hn) Ht _ _. rewrite since_quiet, Hs by auto.
      exists (l ++ t). split; auto. intros ok Hin. apply in_app_or in Hin. destruct Hin as [Hin|Hin].
      + eapply Hn; eauto.
      + eapply forallb_forall in Ht; [|exact Hin]. discriminate.
    - apply (stable_tab (fun t => exists d, find E u t = Some d /\ c_disc E d = true)). }
  eapply T_bind with (Mid := fun _ => Mid).
  { apply T_upd.
    - intros tr s c' s' [(HI & c0 & F0 & HF) Hc] Fc' Ht Hq.
      assert (c' = c) by congruence. subst c'. assert (c0 = c) by congruence. subst c0.
      assert (Ho : c_open u c tr) by (destruct HI as [_ HI]; specialize (HI u); rewrite F0 in HI; exact HI).
      split; [|split].
      + split.
        * eapply INV_put; [| |exact Ht|exact HI]; [congruence|].
          destruct Ho as (l & Hs & H1 & H2 & H3 & H4 & H5). exists l. cbn. split; [auto|]. split; [auto|].
          split; [auto|]. split; [auto|]. split; [discriminate|auto].
        * exists (set_disc E c). rewrite Ht. split; [eapply put_find; eauto|auto].
      + destruct Ho as (l & Hs & _ & _ & _ & H4 & _). exists l. auto.
      + exists (set_disc E c). rewrite Ht. split; [eapply put_find; eauto|auto].
    - intros tr s [(HI & c0 & F0 & HF) Hc]. congruence. }
  tb. eapply T_bind with (Mid := fun _ => Mid).
  { apply T_silent; [apply stable_wstable; auto|apply silent_world]. }
  intros ok. eapply T_bind with (Mid := fun _ => K u F).
  { apply T_emit'.
    - intros tr s _ (_ & H & _). exact H.
    - intros tr s ((HI & HF) & _ & (d & Fd & Hdd)). split; auto.
      apply INV_snoc; auto. intros v ok' c' [= <- <-] Fc. congruence. }
  tb. destruct ok; [apply T_ret'; auto|apply T_stop].
Qed.

Lemma T_responsing_err u (F : consumer E -> Prop) (Hf : forall c, F c -> F (set_disc E c)) :
  T (K u F) (responsing_err E u) (fun _ => K u F).
Proof.
  unfold responsing_err. eapply T_bind with (Mid := fun _ => K u F).
  - destruct (e_cs E); try (apply T_ret'; auto); apply T_disconnect; auto.
  - tb. destruct (e_cs E); try (apply T_ret'; auto).
    all: eapply T_bind with (Mid := fun _ => K u F);
      [apply T_cal; [apply stable_K|apply calm_ident_at]|];
      intros i; apply T_cal; [apply stable_K|apply calm_emit_error].
Qed.

Lemma T_expel u e (F : consumer E -> Prop) (Hf : forall c, F c -> F (set_disc E c)) :
  T (K u F) (expel E u e) (fun _ => K u F).
Proof.
  unfold expel. eapply T_bind; [apply T_disconnect; auto|]. tb.
  eapply T_bind with (Mid := fun _ => K u F);
    [apply T_cal; [apply stable_K|apply calm_ident_at]|].
  intros i. apply T_cal; [apply stable_K|apply calm_emit_error].
Qed.

Lemma T_not_assigned u (F : consumer E -> Prop) (Hf : forall c, F c -> F (set_disc E c)) :
  T (K u F) (not_assigned E u) (fun _ => K u F).
Proof.
  unfold not_assigned. eapply T_bind with (Mid := fun _ => K u F).
  - destruct (e_is E); try (apply T_ret'; auto); apply T_disconnect; auto.
  - tb. destruct (e_is E); try (apply T_ret'; auto).
    all: eapply T_bind with (Mid := fun _ => K u F);
      [apply T_cal; [apply stable_K|apply calm_ident_at]|];
      intros i; apply T_cal; [apply stable_K|apply calm_emit_error].
Qed.

(** ** Answers *)
Lemma T_pack_send u seq p F : is_answer p = true ->
  T (fun tr s => K u F tr s /\ cur u seq tr) (pack_send E u seq p) (fun _ => K u F).
Proof.
  intros Hp. unfold pack_send.
  set (Pre := fun (tr : list out) (s : st) => K u F tr s /\ cur u seq tr).
  assert (Sp : stable E Pre) by (apply stable_and; [apply stable_K|apply stable_cur]).
  eapply T_bind with (Mid := fun _ => Pre); [apply T_cal; [exact Sp|apply calm_try_pack]|].
  intros ok. destruct ok; [|apply T_ret'; intros tr s [H _]; exact H].
  unfold send. eapply T_bind with (Mid := fun _ => Pre).
  { apply T_silent; [apply stable_wstable; auto|apply silent_world]. }
  intros ok. eapply T_bind with (Mid := fun _ => K u F); [|tb; apply T_ret'; auto].
  apply T_emit'.
  - intros tr s _ [_ Hc] _. exact Hc.
  - intros tr s [[HI HF] _]. split; auto. apply INV_snoc; auto. intros v ok' c. discriminate.
Qed.

Definition start_of (u : uuid) (h : header) (m : e_msg E) (tr : list out) : Prop :=
  ends_with (OHandle E u h m) tr.

Lemma start_cur u h m tr : start_of u h m tr -> cur u (h_seq h) tr.
Proof. intros [tr0 ->]. exists tr0, h, m, []. auto. Qed.

Lemma authentic_open u c tr : c_open u c tr -> c_conf E c = true -> c_hash E c = true ->
  c_key E c <> None -> (strict = true -> c_assigned E c <> None) -> authentic u tr.
Proof. intros (l & Hs & H1 & H2 & H3 & _ & H5) A B C D. exists l. auto 8. Qed.

(** the consumer's flags at a call of a handler *)
Definition ready (c : consumer E) : Prop :=
  c_conf E c = true /\ c_hash E c = true /\ c_key E c <> None /\
  (strict = true -> c_assigned E c <> None).

Lemma K_open u F tr s : K u F tr s -> exists c, find E u (s_tab E s) = Some c /\ F c /\ c_open u c tr.
Proof.
  intros [[_ HI] (c & Fc & HF)]. exists c. split; auto. split; auto.
  specialize (HI u). rewrite Fc in HI. auto.
Qed.

Lemma T_call_emit u (F : consumer E -> Prop) h m o t :
  (forall c, F c -> ready c) ->
  (forall tr, authentic u tr -> start_of u h m tr ->
     sees (idents E t) (fun v => since E v tr <> None) -> ok_at tr o) ->
  plain o = true -> unmarked o = true -> (forall v ok, o <> ODisc E v ok) ->
  T (fun tr s => (K u F tr s /\ start_of u h m tr) /\ t = s_tab E s) (emit E o)
    (fun _ tr s => K u F tr s /\ cur u (h_seq h) tr).
Proof.
  intros Hr Hok Hp Hu Hnd. apply T_emit'.
  - intros tr s _ [[HK Hs] ->]. apply Hok; [|exact Hs|apply INV_sees; apply HK].
    destruct (K_open _ _ _ _ HK) as (c & Fc & HF & Ho). apply Hr in HF. destruct HF as (A & B & C & D).
    eapply authentic_open; eauto.
  - intros tr s [[[HI HF] Hs] _]. split.
    + split; auto. apply INV_snoc; auto. intros v ok c Hc. destruct (Hnd v ok Hc).
    + apply cur_app; [cbn; rewrite Hu; auto|]. apply start_cur in Hs. auto.
Qed.

Lemma wstable_start u F h m : wstable (fun tr s => K u F tr s /\ start_of u h m tr).
Proof.
  intros tr s s' [HK Hs] H1 H2. split; auto.
  apply (stable_wstable _ (stable_K u F) tr s s'); auto.
Qed.

Lemma T_get_tab Pre : T Pre (get_tab E) (fun t tr s => Pre tr s /\ t = s_tab E s).
Proof. intros tr s Hg Hp. unfold wp, get_tab. cbn [fst snd]. rewrite app_nil_r. auto. Qed.

Lemma wstable_and A B : wstable A -> wstable B -> wstable (fun tr s => A tr s /\ B tr s).
Proof. intros HA HB tr s s' [H1 H2] Ha Hb. split; [eapply HA|eapply HB]; eauto. Qed.

Lemma wstable_tab (F : table E -> Prop) : wstable (fun _ s => F (s_tab E s)).
Proof. intros tr s s' H H1 _. rewrite H1. auto. Qed.

Lemma T_process_request u r i (h : header) m (F : consumer E -> Prop) :
  (forall c, F c -> ready c) -> e_request E m = Some r ->
  T (fun tr s => K u F tr s /\ start_of u h m tr)
    (process_request E u r i (h_seq h) m) (fun _ => K u F).
Proof.
  intros Hr Em. unfold process_request.
  set (Pre := fun (tr : list out) (s : st) => K u F tr s /\ start_of u h m tr).
  eapply T_bind; [apply T_get_tab|]. intros t. cbv beta.
  set (Pt := fun (tr : list out) (s : st) => Pre tr s /\ t = s_tab E s).
  eapply T_bind with (Mid := fun _ => Pt).
  { apply T_silent; [|apply silent_world].
    apply wstable_and; [apply wstable_start|apply (wstable_tab (fun x => t = x))]. }
  intros res. eapply T_bind; [apply (T_call_emit u F h m) with (t := t); auto|].
  { intros tr Ha Hs Hi. cbn. split; [|exact Hi]. split; auto. split; auto. exists h. exact Hs. }
  { discriminate. }
  tb. set (Pc := fun (tr : list out) (s : st) => K u F tr s /\ cur u (h_seq h) tr).
  assert (Sp : stable E Pc) by (apply stable_and; [apply stable_K|apply stable_cur]).
  eapply T_bind with (Mid := fun _ => Pc).
  { apply T_cal; auto. destruct res as [x|n x bs]; [apply calm_ret|].
    destruct (Nat.ltb 1 (length (e_requests E r))); [|apply calm_ret].
    apply calm_bind; [apply calm_pack_all|]. intros ok. apply calm_ret. }
  intros todo. destruct todo as [[x l]|].
  2:{ apply T_ret'. intros tr s [H _]. exact H. }
  eapply T_bind; [apply T_pack_send; reflexivity|].
  intros ok. destruct ok; [|apply T_ret'; auto].
  apply T_cal; [apply stable_K|].
  apply calm_bind; [apply calm_broadcast_all|]. tb.
  apply calm_bind; [apply calm_deferred|]. tb. apply calm_ret.
Qed.

Lemma T_process_beacon u b i (h : header) m (F : consumer E -> Prop) :
  (forall c, F c -> ready c) -> e_beacon E m = Some b ->
  T (fun tr s => K u F tr s /\ start_of u h m tr)
    (process_beacon E u b i (h_seq h) m) (fun _ => K u F).
Proof.
  intros Hr Em. unfold process_beacon.
  set (Pre := fun (tr : list out) (s : st) => K u F tr s /\ start_of u h m tr).
  eapply T_bind; [apply T_get_tab|]. intros t. cbv beta.
  set (Pt := fun (tr : list out) (s : st) => Pre tr s /\ t = s_tab E s).
  eapply T_bind with (Mid := fun _ => Pt).
  { apply T_silent; [|apply silent_world].
    apply wstable_and; [apply wstable_start|apply (wstable_tab (fun x => t = x))]. }
  intros ok. eapply T_bind; [apply (T_call_emit u F h m) with (t := t); auto|].
  { intros tr Ha Hs Hi. cbn. split; [|exact Hi]. split; auto. split; auto. exists h. exact Hs. }
  { discriminate. }
  tb. destruct ok; [|apply T_ret'; intros tr s [H _]; exact H].
  eapply T_bind; [apply T_pack_send; reflexivity|].
  intros ok. destruct ok; [|apply T_ret'; auto].
  apply T_cal; [apply stable_K|].
  apply calm_bind; [apply calm_deferred|]. tb. apply calm_ret.
Qed.

(** ** One message *)
Definition base_fact (asg hk : bool) (c : consumer E) : Prop :=
  c_conf E c = true /\ (hk = true -> c_key E c <> None) /\
  (asg = true -> strict = true -> c_assigned E c <> None).

Lemma base_disc asg hk c : base_fact asg hk c -> base_fact asg hk (set_disc E c).
Proof. auto. Qed.

Lemma ready_disc c : ready c -> ready (set_disc E c).
Proof. auto. Qed.

Lemma K_mono u (F G : consumer E -> Prop) tr s : (forall c, F c -> G c) -> K u F tr s -> K u G tr s.
Proof. intros H [HI (c & Fc & HF)]. split; auto. eauto. Qed.

Lemma T_dispatch u c0 h m (F : consumer E -> Prop) :
  (forall c, F c -> ready c) -> (forall c, F c -> F (set_disc E c)) ->
  T (fun tr s => K u F tr s /\ start_of u h m tr) (dispatch E u c0 h m) (fun _ => K u F).
Proof.
  intros Hr Hf. unfold dispatch. destruct (e_request E m) as [r|] eqn:Er.
  - eapply T_bind; [apply T_process_request; auto|].
    intros ok. destruct ok; [apply T_ret'; auto|apply T_responsing_err; auto].
  - destruct (e_beacon E m) as [b|] eqn:Eb; [|apply T_ret'; tauto].
    eapply T_bind; [apply T_process_beacon; auto|].
    intros ok. destruct ok; [apply T_ret'; auto|].
    apply T_cal; [apply stable_K|apply calm_emit_error].
Qed.

Lemma since_ends u tr o : plain o = true -> forall l, since E u (tr ++ [o]) = Some l -> In o l.
Proof.
  intros Hp l. rewrite since_plain by auto. destruct (since E u tr); [|discriminate].
  intros [= <-]. apply in_or_app. cbn. auto.
Qed.

Lemma T_handle u asg hk h m c :
  T (fun tr s => K u (fun d => d = c /\ base_fact asg hk d) tr s /\ start_of u h m tr)
    (handle E u asg hk h m c) (fun _ => K u (base_fact asg hk)).
Proof.
  assert (Hother :
    T (fun tr s => K u (fun d => d = c /\ base_fact asg hk d) tr s /\ start_of u h m tr)
      (match e_hash E m with
       | Some pw =>
         bindp E (if hash_valid E pw then upd E u (set_hash E) else ret E tt) (fun _ =>
         bindp E (pack_send E u (h_seq h) (PHash (hash_valid E pw))) (fun ok =>
         bindp E (if ok then ret E tt else responsing_err E u) (fun _ =>
         if hash_valid E pw then ret E tt else expel E u (ENoKey u))))
       | None =>
         if negb (c_hash E c) then expel E u (ENoKey u)
         else if negb hk then expel E u (ENoKey u)
         else if negb asg && match e_is E with IIgnore => false | _ => true end then not_assigned E u
         else dispatch E u c h m
       end) (fun _ => K u (base_fact asg hk))).
  { destruct (e_hash E m) as [pw|] eqn:Eh.
    - eapply T_bind with (Mid := fun _ tr s => K u (base_fact asg hk) tr s /\ cur u (h_seq h) tr).
      + destruct (hash_valid E pw) eqn:Hv.
        * apply T_upd.
          -- intros tr s d s' [[HI (d0 & Fd0 & -> & Hb)] Hs] Fd Ht Hq.
             assert (d = c) by congruence. subst d. split; [|apply start_cur in Hs; auto].
             split.
             ++ eapply INV_put; [| |exact Ht|exact HI]; [congruence|].
                destruct HI as [_ HI]. specialize (HI u). rewrite Fd0 in HI.
                destruct HI as (l & Hl & H1 & H2 & H3 & H4). exists l. cbn.
                split; [auto|]. split; [auto|]. split; [|auto].
                tb. exists h, m. split.
                ** destruct Hs as [tr0 ->]. eapply since_ends; [|exact Hl]. reflexivity.
                ** rewrite Eh. unfold hash_valid in Hv. apply andb_true_iff in Hv.
                   destruct Hv as [Ha Hb']. apply bytes_eqb_eq in Ha. apply bytes_eqb_eq in Hb'.
                   destruct pw; cbn in *. congruence.
             ++ exists (set_hash E c). rewrite Ht. split; [eapply put_find; eauto|]. exact Hb.
          -- intros tr s [[HI (d0 & Fd0 & _)] _]. congruence.
        * apply T_ret'. intros tr s [HK Hs]. split; [|apply start_cur in Hs; auto].
          eapply K_mono; [|exact HK]. intros d [_ H]. exact H.
      + tb. eapply T_bind; [apply T_pack_send; reflexivity|].
        intros ok. eapply T_bind with (Mid := fun _ => K u (base_fact asg hk)).
        * destruct ok; [apply T_ret'; auto|apply T_responsing_err; apply base_disc].
        * tb. destruct (hash_valid E pw); [apply T_ret'; auto|].
          apply T_expel. apply base_disc.
    - assert (W : forall tr s, K u (fun d => d = c /\ base_fact asg hk d) tr s /\ start_of u h m tr ->
                  K u (base_fact asg hk) tr s).
      { intros tr s [HK _]. eapply K_mono; [|exact HK]. intros d [_ H]. exact H. }
      destruct (c_hash E c) eqn:Hc; cbn [negb].
      2:{ eapply T_weak; [exact W|]. apply T_expel. apply base_disc. }
      destruct hk eqn:Hhk; cbn [negb].
      2:{ eapply T_weak; [exact W|]. apply T_expel. apply base_disc. }
      destruct (negb asg && match e_is E with IIgnore => false | _ => true end) eqn:Ha.
      { eapply T_weak; [exact W|]. apply T_not_assigned. apply base_disc. }
      eapply T_post.
      + eapply T_weak; [|apply (T_dispatch u c h m ready); auto using ready_disc].
        intros tr s [HK Hs]. split; auto. eapply K_mono; [|exact HK].
        intros d [-> (H1 & H2 & H3)]. split; auto. split; auto. split; auto.
        intros Hst. apply H3; auto. destruct asg; auto. unfold strict in Hst. cbn in Ha.
        destruct (e_is E); discriminate.
      + intros a tr s HK; cbv beta in HK. eapply K_mono; [|exact HK].
        intros d (H1 & H2 & H3 & H4). split; auto. }
  unfold handle. destruct (e_self E m) as [k|] eqn:Es; [|exact Hother].
  destruct (c_hash E c) eqn:Hc; [exact Hother|]. clear Hother.
  eapply T_bind with (Mid := fun _ tr s => K u (base_fact asg hk) tr s /\ cur u (h_seq h) tr).
  - apply T_upd.
    + intros tr s d s' [[HI (d0 & Fd0 & -> & Hb)] Hs] Fd Ht Hq.
      assert (d = c) by congruence. subst d. split; [|apply start_cur in Hs; auto].
      split.
      * eapply INV_put; [| |exact Ht|exact HI]; [congruence|].
        destruct HI as [_ HI]. specialize (HI u). rewrite Fd0 in HI.
        destruct HI as (l & Hl & H1 & H2 & H3 & H4). exists l. cbn.
        split; [auto|]. split; [auto|]. split; [auto|]. split; [|auto].
        tb. left. exists h, m, k. split; auto.
        destruct Hs as [tr0 ->]. eapply since_ends; [|exact Hl]. reflexivity.
      * exists (set_key E k true c). rewrite Ht. split; [eapply put_find; eauto|].
        destruct Hb as (Hb1 & Hb2 & Hb3). split; cbn; auto. split; [discriminate|auto].
    + intros tr s [[HI (d0 & Fd0 & _)] _]. congruence.
  - tb. eapply T_bind; [apply T_pack_send; reflexivity|].
    intros ok. destruct ok; [apply T_ret'; auto|apply T_responsing_err; apply base_disc].
Qed.

Lemma T_loop u asg hk ms : T (K u (base_fact asg hk)) (loop E u asg hk ms) (fun _ => K u (base_fact asg hk)).
Proof.
  induction ms as [|[h m] ms IH]; cbn [loop]; [apply T_ret'; auto|].
  eapply T_bind; [apply T_look|]. intros o. cbv beta.
  destruct o as [c|]; [|apply T_ret'; tauto].
  eapply T_bind with (Mid := fun _ tr s =>
    K u (fun d => d = c /\ base_fact asg hk d) tr s /\ start_of u h m tr).
  - apply T_emit'.
    + intros tr s _ [HK Hc]. destruct (K_open _ _ _ _ HK) as (d & Fd & [Hb _] & Ho).
      destruct Ho as (l & Hl & H1 & _). cbn. exists l. split; auto.
    + intros tr s [[HI (d & Fd & Hb)] Hc]. split; [|exists tr; reflexivity]. split.
      * apply INV_snoc; auto. intros v ok c'. discriminate.
      * exists d. split; auto. split; [congruence|auto].
  - tb. eapply T_bind; [apply T_handle|]. tb. exact IH.
Qed.

Lemma T_upd_buf u b (F : consumer E -> Prop) : (forall c, F c -> F (set_buf E b c)) ->
  T (K u F) (upd E u (set_buf E b)) (fun _ => K u F).
Proof.
  intros Hf. apply T_upd.
  - intros tr s c s' [HI (d & Fd & HF)] Fc Ht Hq. assert (d = c) by congruence. subst d. split.
    + eapply INV_put; [| |exact Ht|exact HI]; [congruence|].
      destruct HI as [_ HI]. specialize (HI u). rewrite Fc in HI. exact HI.
    + exists (set_buf E b c). rewrite Ht. split; [eapply put_find; eauto|auto].
  - intros tr s [_ (d & Fd & _)]. congruence.
Qed.

Lemma T_responsing_absent u :
  T (fun tr s => INV tr s /\ find E u (s_tab E s) = None) (responsing_err E u) (fun _ => INV).
Proof.
  set (Pre := fun (tr : list out) (s : st) => INV tr s /\ find E u (s_tab E s) = None).
  assert (Sp : stable E Pre).
  { apply stable_and; [apply stable_INV|]. apply (stable_tab (fun t => find E u t = None)). }
  assert (D : T Pre (disconnect E u) (fun _ => Pre)).
  { unfold disconnect. eapply T_bind; [apply T_look|]. intros [c|].
    - intros tr s _ [[_ H] Hc]. congruence.
    - apply T_ret'. tauto. }
  unfold responsing_err. eapply T_bind with (Mid := fun _ => Pre).
  - destruct (e_cs E); try (apply T_ret'; auto); exact D.
  - tb. eapply T_post with (Post := fun _ => Pre); [|intros _ tr s [H _]; exact H].
    destruct (e_cs E); try (apply T_ret'; auto).
    all: eapply T_bind with (Mid := fun _ => Pre); [apply T_cal; [exact Sp|apply calm_ident_at]|];
      intros i; apply T_cal; [exact Sp|apply calm_emit_error].
Qed.

Lemma T_received u data : T INV (process_received_data E u data) (fun _ => INV).
Proof.
  unfold process_received_data. eapply T_bind; [apply T_look|]. intros o. cbv beta.
  destruct o as [c|].
  2:{ eapply T_weak; [|apply T_responsing_absent]. intros tr s [H1 H2]. auto. }
  assert (KI : forall F (a : unit) tr s, K u F tr s -> INV tr s) by (intros F a tr s [H _]; exact H).
  assert (W : forall tr s, INV tr s /\ Some c = find E u (s_tab E s) -> K u (fun d => d = c) tr s).
  { intros tr s [H1 H2]. split; auto. exists c. auto. }
  destruct (negb (c_conf E c)) eqn:Hc.
  { eapply T_post; [|apply (KI (fun _ => True))]. eapply T_weak; [|apply T_expel; auto].
    intros tr s H. eapply K_mono; [|apply W; exact H]. auto. }
  apply negb_false_iff in Hc.
  destruct (c_disc E c); [apply T_ret'; tauto|].
  destruct (chunk (e_get E) (e_sig E) (c_buf E c) data) as [o b].
  destruct o as [|e|].
  - eapply T_post; [|apply (KI (base_fact (is_assigned E c) (has_key E c)))].
    eapply T_weak with (Pre := K u (base_fact (is_assigned E c) (has_key E c))).
    { intros tr s H. eapply K_mono; [|apply W; exact H]. intros d ->. split; auto.
      unfold has_key, is_assigned, strict. split; [destruct (c_key E c); discriminate|].
      destruct (c_assigned E c); [discriminate|]. destruct (e_is E); discriminate. }
    eapply T_bind; [apply T_upd_buf; auto|]. tb. apply T_loop.
  - eapply T_post; [|apply (KI (fun _ => True))].
    eapply T_weak with (Pre := K u (fun _ => True)).
    { intros tr s H. eapply K_mono; [|apply W; exact H]. auto. }
    eapply T_bind; [apply T_upd_buf; auto|]. tb. apply T_responsing_err; auto.
  - apply T_panic.
Qed.

(** ** Connections *)
Lemma T_add u : T INV (add_connection E u) (fun _ => INV).
Proof.
  unfold add_connection. eapply T_bind; [apply T_look|]. intros o. cbv beta.
  destruct o as [c|]; [apply T_stop|].
  set (Pre := fun (tr : list out) (s : st) => INV tr s /\ None = find E u (s_tab E s)).
  assert (Sp : stable E Pre).
  { apply stable_and; [apply stable_INV|]. apply (stable_tab (fun t => None = find E u t)). }
  eapply T_bind; [apply T_get_tab|]. intros t. cbv beta.
  set (Pt := fun (tr : list out) (s : st) => Pre tr s /\ t = s_tab E s).
  eapply T_bind with (Mid := fun _ => Pt).
  { apply T_silent; [|apply silent_world].
    apply wstable_and; [apply stable_wstable; auto|apply (wstable_tab (fun x => t = x))]. }
  intros bs.
  set (Mid := fun (tr : list out) (s : st) => exists tr0 l,
     tr = tr0 ++ OConnected E u (idents E t) bs :: l /\
     forallb (quiet E) l = true /\ Pre tr0 s).
  assert (Sm : stable E Mid).
  { intros tr s l s' (tr0 & l0 & -> & Hq & HP) Hl H1 H2.
    exists tr0, (l0 ++ l). rewrite <- app_assoc. split; [reflexivity|].
    rewrite forallb_app, Hq, Hl. split; auto. apply (stable_wstable _ Sp tr0 s); auto. }
  eapply T_bind with (Mid := fun _ => Mid).
  { apply T_emit'.
    - intros tr s _ [[HI Hf] Ht]. split; [|rewrite Ht; apply INV_sees; exact HI].
      destruct HI as [_ HI]. specialize (HI u). rewrite <- Hf in HI. exact HI.
    - intros tr s [HP _]. exists tr, []. auto. }
  tb. eapply T_bind with (Mid := fun _ => Mid).
  { apply T_cal; auto. apply calm_emit_event. }
  intros _ tr s Hg (tr0 & l & -> & Hq & [Nd HI] & Hf). unfold wp. cbn [fst snd].
  rewrite app_nil_r. split; auto. cbn [s_tab]. split.
  - cbn. constructor; auto. intros Hin. apply find_In in Hin. congruence.
  - intros v. cbn [s_tab find]. destruct (N.eqb_spec v u) as [->|Hn].
    + exists l. unfold since. rewrite fold_left_app. cbn [fold_left push]. rewrite N.eqb_refl.
      rewrite (fold_quiet E u l (Some []) Hq). cbn. split; auto. split; [discriminate|].
      split; [discriminate|]. split; [congruence|]. split; [|congruence]. intros _ ok Hin.
      eapply forallb_forall in Hq; [|exact Hin]. discriminate.
    + specialize (HI v).
      assert (Hs : since E v (tr0 ++ OConnected E u (idents E t) bs :: l) =
                   match since E v tr0 with Some l0 => Some (l0 ++ OConnected E u (idents E t) bs :: l) | None => None end).
      { unfold since. rewrite fold_left_app. cbn [fold_left push].
        destruct (N.eqb_spec u v); [congruence|].
        rewrite (fold_quiet E v l _ Hq).
        destruct (fold_left (push E v) tr0 None); rewrite <- ?app_assoc; reflexivity. }
      destruct (find E v (s_tab E s)) as [c|].
      * destruct HI as (l0 & Hl0 & H1 & H2 & H3 & H4 & H5). exists (l0 ++ OConnected E u (idents E t) bs :: l).
        rewrite Hs, Hl0. split; auto. split; [|split; [|split; [|split]]].
        -- intros H. apply in_or_app. left. exact (H1 H).
        -- intros H. destruct (H2 H) as (h & m & Ho & Hh). exists h, m. split; auto. apply in_or_app. auto.
        -- intros H. destruct (H3 H) as [(h & m & k & Ho & Hh)|Ho]; [left|right].
           ++ exists h, m, k. split; auto. apply in_or_app. auto.
           ++ apply in_or_app. auto.
        -- intros H ok Ho. apply in_app_or in Ho. destruct Ho as [Ho|[Ho|Ho]]; [|discriminate|].
           ++ apply (H4 H ok Ho).
           ++ eapply forallb_forall in Hq; [|exact Ho]. discriminate.
        -- intros H. apply in_or_app. left. exact (H5 H).
      * rewrite Hs, HI. reflexivity.
Qed.

Lemma T_remove u : T INV (remove_connection E u) (fun _ => INV).
Proof.
  unfold remove_connection. eapply T_bind; [apply T_look|]. intros o. cbv beta.
  destruct o as [c|]; [|apply T_ret'; tauto].
  set (Mid := fun (tr : list out) (s : st) => exists s0, INV tr s0 /\
     find E u (s_tab E s0) = Some c /\ s_tab E s = drop E u (s_tab E s0)).
  assert (Wm : wstable Mid).
  { intros tr s s' (s0 & H1 & H2 & H3) H4 _. exists s0. split; auto. split; auto. congruence. }
  eapply T_bind with (Mid := fun _ => Mid).
  { intros tr s Hg [HI Hf]. unfold wp. cbn [fst snd]. rewrite app_nil_r. split; auto.
    exists s. cbn [s_tab]. auto. }
  tb. eapply T_bind; [apply T_get_tab|]. intros t. cbv beta.
  set (Pt := fun (tr : list out) (s : st) => Mid tr s /\ t = s_tab E s).
  eapply T_bind with (Mid := fun _ => Pt).
  { apply T_silent; [|apply silent_world].
    apply wstable_and; [exact Wm|apply (wstable_tab (fun x => t = x))]. }
  intros bs. eapply T_bind with (Mid := fun _ => INV).
  { apply T_emit'.
    - intros tr s _ [(s0 & HI & Hf & Hd) Ht]. pose proof (INV_sees _ _ HI) as [Sn Si].
      rewrite idents_uuid in Sn, Si. cbn [ok_at]. split.
      + destruct HI as [_ HI]. specialize (HI u). rewrite Hf in HI.
        destruct HI as (l & Hl & _). congruence.
      + unfold sees. rewrite idents_uuid, Ht, Hd. split; [apply NoDup_drop; auto|].
        intros v. rewrite <- Si. rewrite <- (find_In E v (drop E u _)), <- (find_In E v (s_tab E s0)).
        destruct (N.eq_dec v u) as [->|Hn].
        * rewrite find_drop_same by auto. tauto.
        * rewrite find_drop_other by auto. tauto.
    - intros tr s [(s0 & [Nd HI] & Hf & Ht) _]. split.
      + rewrite Ht. apply NoDup_drop. auto.
      + intros v. rewrite Ht. rewrite since_snoc. cbn [push].
        destruct (N.eqb_spec u v) as [<-|Hn].
        * rewrite find_drop_same by auto. reflexivity.
        * rewrite find_drop_other by auto. specialize (HI v).
          destruct (find E v (s_tab E s0)) as [d|].
          -- destruct HI as (l0 & Hl0 & H1 & H2 & H3 & H4 & H5). exists (l0 ++ [ODisconnected E u (idents E t) bs]).
             rewrite since_snoc, Hl0. cbn [push]. destruct (N.eqb_spec u v); [congruence|].
             split; auto. split; [|split; [|split; [|split]]].
             ++ intros H. apply in_or_app. left. exact (H1 H).
             ++ intros H. destruct (H2 H) as (h & m & Ho & Hh). exists h, m. split; auto. apply in_or_app. auto.
             ++ intros H. destruct (H3 H) as [(h & m & k & Ho & Hh)|Ho]; [left|right].
                ** exists h, m, k. split; auto. apply in_or_app. auto.
                ** apply in_or_app. auto.
             ++ intros H ok Ho. apply in_app_or in Ho. destruct Ho as [Ho|[Ho|[]]]; [|discriminate].
                apply (H4 H ok Ho).
             ++ intros H. apply in_or_app. left. exact (H5 H).
          -- rewrite HI. reflexivity. }
  tb. eapply T_bind with (Mid := fun _ => INV).
  { apply T_cal; [apply stable_INV|apply calm_emit_event]. }
  tb. apply T_ret'. auto.
Qed.

Lemma T_confirm : T INV (confirm E) (fun _ => INV).
Proof.
  intros tr s Hg HI. unfold confirm, wp.
  destruct (s_conf E s) as [|u q].
  { cbn [fst snd]. rewrite app_nil_r. auto. }
  set (s1 := mkSt E (s_w E s) (s_tab E s) q).
  assert (HI1 : INV tr s1) by (eapply INV_eq; [|exact HI]; reflexivity).
  clearbody s1. clear HI s. rename HI1 into HI. rename s1 into s. revert tr s Hg HI.
  change (T INV (bindp E (look E u) (fun c => match c with
     | Some _ => bindp E (upd E u (set_conf E)) (fun _ =>
         bindp E (try_pack E (Some u) 0 PConfirm) (fun ok =>
         if ok then bindp E (send E u 0 PConfirm) (fun ok0 => if ok0 then ret E tt else stop E EServer)
         else stop E (EProtocol u)))
     | None => emit_error E EConsumer (Some u) None end)) (fun _ => INV)).
  eapply T_bind; [apply T_look|]. intros o. cbv beta.
  destruct o as [c|].
  2:{ eapply T_weak with (Pre := INV); [tauto|]. apply T_cal; [apply stable_INV|apply calm_emit_error]. }
  set (Mid := fun (tr : list out) (s : st) => exists s0, INV tr s0 /\
     find E u (s_tab E s0) = Some c /\ s_tab E s = put E u (set_conf E c) (s_tab E s0)).
  assert (Sm : stable E Mid).
  { intros tr s t s' (s0 & H1 & H2 & H3) Ht H4 _. exists s0.
    split; [apply INV_app_quiet; auto|]. split; auto. congruence. }
  eapply T_bind with (Mid := fun _ => Mid).
  { apply T_upd.
    - intros tr s c' s' [HI Hf] Fc Ht _. exists s. split; auto. split; auto. congruence.
    - intros tr s [HI Hf]. congruence. }
  tb. eapply T_bind with (Mid := fun _ => Mid); [apply T_cal; [exact Sm|apply calm_try_pack]|].
  intros ok. destruct ok; [|apply T_stop].
  set (Q := fun (ok : bool) (tr : list out) (s : st) => ok = true -> INV tr s).
  eapply T_bind with (Mid := Q); [|intros [|]; [apply T_ret'; unfold Q; auto|apply T_stop]].
  unfold send. eapply T_bind with (Mid := fun _ => Mid).
  { apply T_silent; [apply stable_wstable; auto|apply silent_world]. }
  intros ok. eapply T_bind with (Mid := fun _ => Q ok); [|tb; apply T_ret'; auto].
  apply T_emit'.
  - intros tr s _ _ H. discriminate.
  - intros tr s (s0 & HI & Hf & Ht) Hok. subst ok.
    assert (HI' : INV (tr ++ [OSend E u 0 PConfirm true]) s0).
    { apply INV_snoc; auto. intros v ok' c'. discriminate. }
    eapply INV_put; [| |exact Ht|exact HI']; [congruence|].
    destruct HI' as [_ HI']. specialize (HI' u). rewrite Hf in HI'.
    destruct HI' as (l & Hl & H1 & H2 & H3 & H4). exists l. cbn. split; [auto|]. split; [|auto].
    tb. unfold confirmed. eapply since_ends; [|exact Hl]. reflexivity.
Qed.

Lemma T_setkey u k ov : T (fun tr s => INV tr s /\ find E u (s_tab E s) <> None)
  (bindp E (upd E u (set_key E k ov)) (fun _ => bindp E (emit E (OSetKey E u)) (fun _ => ret E true)))
  (fun _ => INV).
Proof.
  set (Mid := fun (tr : list out) (s : st) => exists s0 c, INV tr s0 /\
     find E u (s_tab E s0) = Some c /\ s_tab E s = put E u (set_key E k ov c) (s_tab E s0)).
  eapply T_bind with (Mid := fun _ => Mid).
  { apply T_upd.
    - intros tr s c s' [HI _] Fc Ht _. exists s, c. auto.
    - intros tr s [_ H]. exact H. }
  tb. eapply T_bind with (Mid := fun _ => INV); [|tb; apply T_ret'; auto].
  apply T_emit'; [cbn; auto|].
  intros tr s (s0 & c & HI & Fc & Ht).
  assert (HI' : INV (tr ++ [OSetKey E u]) s0).
  { apply INV_snoc; auto. intros v ok' c'. discriminate. }
  eapply INV_put; [| |exact Ht|exact HI']; [congruence|].
  destruct HI' as [_ HI']. specialize (HI' u). rewrite Fc in HI'.
  destruct HI' as (l & Hl & H1 & H2 & H3 & H4). exists l. cbn. split; [auto|]. split; [auto|].
  split; [auto|]. split; [|auto]. tb. right. eapply since_ends; [|exact Hl]. reflexivity.
Qed.

Lemma T_setassigned u k ov : T (fun tr s => INV tr s /\ find E u (s_tab E s) <> None)
  (bindp E (upd E u (set_assigned E k ov)) (fun _ => bindp E (emit E (OSetAssigned E u)) (fun _ => ret E true)))
  (fun _ => INV).
Proof.
  set (Mid := fun (tr : list out) (s : st) => exists s0 c, INV tr s0 /\
     find E u (s_tab E s0) = Some c /\ s_tab E s = put E u (set_assigned E k ov c) (s_tab E s0)).
  eapply T_bind with (Mid := fun _ => Mid).
  { apply T_upd.
    - intros tr s c s' [HI _] Fc Ht _. exists s, c. auto.
    - intros tr s [_ H]. exact H. }
  tb. eapply T_bind with (Mid := fun _ => INV); [|tb; apply T_ret'; auto].
  apply T_emit'; [cbn; auto|].
  intros tr s (s0 & c & HI & Fc & Ht).
  assert (HI' : INV (tr ++ [OSetAssigned E u]) s0).
  { apply INV_snoc; auto. intros v ok' c'. discriminate. }
  eapply INV_put; [| |exact Ht|exact HI']; [congruence|].
  destruct HI' as [_ HI']. specialize (HI' u). rewrite Fc in HI'.
  destruct HI' as (l & Hl & H1 & H2 & H3 & H4 & H5). exists l. cbn. split; [auto|]. split; [auto|].
  split; [auto|]. split; [auto|]. split; [auto|]. tb. eapply since_ends; [|exact Hl]. reflexivity.
Qed.

Lemma T_step e : T INV (step E e) (fun _ => INV).
Proof.
  assert (G : forall (m : P unit) (b : bool), T INV m (fun _ => INV) -> T INV (bindp E m (fun _ => ret E b)) (fun _ => INV)).
  { intros m b H. eapply T_bind; [exact H|]. tb. apply T_ret'. auto. }
  assert (C : forall A (m : P A), calm E m -> T INV m (fun _ => INV)).
  { intros A m H. apply T_cal; [apply stable_INV|exact H]. }
  destruct e; cbn [step].
  - apply C. apply calm_bind; [apply calm_world|]. intros ok.
    apply calm_bind; [apply calm_emit; auto|]. tb. destruct ok; [apply calm_ret|apply calm_stop].
  - apply T_ret'. auto.
  - apply G, T_add.
  - apply G, T_remove.
  - apply G, T_received.
  - apply C. apply calm_bind; [apply calm_opt_ident|]. intros i.
    apply calm_bind; [apply calm_emit_error|]. tb. apply calm_ret.
  - apply C. apply calm_bind; [apply calm_opt_ident|]. intros i.
    apply calm_bind; [apply calm_emit_error|]. tb. apply calm_ret.
  - apply G, C, calm_emit_error.
  - eapply T_bind; [apply T_get_tab|]. intros t. cbv beta.
    set (Pt := fun (tr : list out) (s : st) => INV tr s /\ t = s_tab E s).
    eapply T_bind with (Mid := fun _ => Pt).
    { apply T_silent; [|apply silent_world].
      apply wstable_and; [apply stable_wstable, stable_INV|apply (wstable_tab (fun x => t = x))]. }
    intros bs. eapply T_bind with (Mid := fun _ => INV).
    { apply T_emit'.
      - intros tr s _ [HI ->]. apply INV_sees. exact HI.
      - intros tr s [HI _]. apply INV_snoc; auto. intros v ok' c'. discriminate. }
    tb. apply C. apply calm_bind; [apply calm_emit_event|]. intros o. apply calm_ret.
  - eapply T_bind; [apply T_look|]. intros o. cbv beta. destruct o as [c|].
    + eapply T_weak; [|apply T_setkey]. intros tr s [H1 H2]. split; [auto|congruence].
    + eapply T_weak with (Pre := INV); [tauto|]. apply G, C, calm_emit_error.
  - eapply T_bind; [apply T_look|]. intros o. cbv beta. destruct o as [c|].
    + eapply T_weak; [|apply T_setassigned]. intros tr s [H1 H2]. split; [auto|congruence].
    + eapply T_weak with (Pre := INV); [tauto|]. apply G, C, calm_emit_error.
  - apply G, T_confirm.
  - apply T_ret'. auto.
Qed.

Lemma T_listen es : T INV (listen E es) (fun _ => INV).
Proof.
  induction es as [|e es IH]; cbn [listen]; [apply T_ret'; auto|].
  eapply T_bind; [apply T_step|]. intros go. destruct go; [exact IH|apply T_ret'; auto].
Qed.

Lemma INV_start w : INV [] (start E w).
Proof. split; [constructor|]. intros u. reflexivity. Qed.

(** Every trace of the producer is good. *)
Theorem listen_good w es : Good E ok_at (fst (listen E es (start E w))).
Proof.
  pose proof (T_listen es [] (start E w) (Good_nil E ok_at) (INV_start w)) as H.
  unfold wp in H. cbn [app] in H. exact (proj1 H).
Qed.

Lemma listen_inv w es t s b : listen E es (start E w) = (t, (s, PGo b)) -> INV t s.
Proof.
  intros H. pose proof (T_listen es [] (start E w) (Good_nil E ok_at) (INV_start w)) as HT.
  apply wp_elim with (1 := HT) in H. destruct H as [_ H]. exact H.
Qed.

End Inv.
