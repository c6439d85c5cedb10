(** What a generated producer does to one of its consumers that keeps to the
    protocol: the server's half of C41. *)
From Coq Require Import List NArith Bool Lia.
From Verif Require Import Bytes WireModel FrameModel ProducerModel ProducerProofs.
From Verif Require Import ProducerSeg ProducerStop.
Import ListNotations.
Open Scope N_scope.

Section Server.
Variable E : env.
Variable u : uuid.

Notation out := (out E).
Notation st := (st E).
Notation P := (P E).
Notation consumer := (consumer E).

(** ** Pieces of code that do not change what is known about [u] *)
Definition alien (o : out) : Prop :=
  match o with
  | ODisc _ v _ => v <> u
  | OError _ e w => e <> ENoKey u /\ (e = ENotConfirmed -> w <> Some u)
  | OSend _ v _ p _ => v = u -> match p with PAnswer _ | PBroadcast _ | PBeacon | PHash false => True | _ => False end
  | OSetAssigned _ v | OHandle _ v _ _ => v <> u
  | _ => True
  end.

Definition fits {A} (m : P A) : Prop :=
  forall s, wp E m s (fun t s' _ => Forall alien t /\ find E u (s_tab E s') = find E u (s_tab E s)).

Lemma fits_bind {A B} (m : P A) (f : A -> P B) : fits m -> (forall a, fits (f a)) -> fits (bindp E m f).
Proof.
  intros Hm Hf s. apply wp_bind. eapply wp_mono; [apply Hm|]. cbv beta. intros t s1 [a|e|] (Ht & H1); auto.
  eapply wp_mono; [apply Hf|]. cbv beta. intros t2 s2 r2 (Ht2 & H2).
  split; [apply Forall_app; auto|congruence].
Qed.
Lemma fits_ret {A} (a : A) : fits (ret E a).
Proof. intros s. split; [constructor|reflexivity]. Qed.
Lemma fits_stop {A} e : fits (@stop E A e).
Proof. intros s. split; [constructor|reflexivity]. Qed.
Lemma fits_panic {A} : fits (@panic E A).
Proof. intros s. split; [constructor|reflexivity]. Qed.
Lemma fits_emit o : alien o -> fits (emit E o).
Proof. intros H s. split; [repeat constructor; exact H|reflexivity]. Qed.
Lemma fits_world {A} (f : _ -> _ * A) : fits (world E f).
Proof. intros s. unfold wp, world. destruct (f (s_w E s)). split; [constructor|reflexivity]. Qed.
Lemma fits_get_tab : fits (get_tab E).
Proof. intros s. split; [constructor|reflexivity]. Qed.
Lemma fits_look v : fits (look E v).
Proof. intros s. split; [constructor|reflexivity]. Qed.
Lemma fits_upd v f : v <> u -> fits (upd E v f).
Proof.
  intros H s. unfold wp, upd. destruct (find E v (s_tab E s)); cbn [fst snd s_tab]; split; try constructor; auto.
  apply find_put_other. exact H.
Qed.
Lemma fits_try_pack w n p : fits (try_pack E w n p).
Proof.
  apply fits_bind; [apply fits_world|]. intros [|]; [apply fits_ret|].
  apply fits_bind; [apply fits_emit; exact I|]. intros. apply fits_ret.
Qed.
Lemma fits_send v n p : (v = u -> match p with PAnswer _ | PBroadcast _ | PBeacon | PHash false => True | _ => False end) -> fits (send E v n p).
Proof.
  intros H. apply fits_bind; [apply fits_world|]. intros ok. apply fits_bind; [apply fits_emit; exact H|].
  intros. apply fits_ret.
Qed.
Lemma fits_pack_send v n p : (v = u -> match p with PAnswer _ | PBroadcast _ | PBeacon | PHash false => True | _ => False end) -> fits (pack_send E v n p).
Proof. intros H. apply fits_bind; [apply fits_try_pack|]. intros [|]; [apply fits_send; exact H|apply fits_ret]. Qed.
Lemma fits_broadcast us x : fits (broadcast E us x).
Proof.
  induction us as [|v us IH]; cbn [broadcast]; [apply fits_ret|].
  apply fits_bind; [apply fits_send; intros; exact I|]. intros _. exact IH.
Qed.
Lemma fits_broadcast_all l : fits (broadcast_all E l).
Proof.
  induction l as [|[us x] l IH]; cbn [broadcast_all]; [apply fits_ret|].
  apply fits_bind; [apply fits_broadcast|]. intros _. exact IH.
Qed.
Lemma fits_pack_all w l : fits (pack_all E w l).
Proof.
  induction l as [|[us x] l IH]; cbn [pack_all]; [apply fits_ret|].
  apply fits_bind; [apply fits_try_pack|]. intros [|]; [exact IH|apply fits_ret].
Qed.
Lemma fits_deferred : fits (deferred E).
Proof. apply fits_bind; [apply fits_world|]. intros _. apply fits_emit. exact I. Qed.
Lemma fits_emit_error e w i : e <> ENoKey u -> (e = ENotConfirmed -> w <> Some u) -> fits (emit_error E e w i).
Proof.
  intros H1 H2. apply fits_bind; [apply fits_world|]. intros ok.
  apply fits_bind; [apply fits_emit; cbn; auto|]. intros _. destruct ok; [apply fits_ret|apply fits_stop].
Qed.
Lemma fits_ident_at v : fits (ident_at E v).
Proof. apply fits_bind; [apply fits_look|]. intros. apply fits_ret. Qed.
Lemma fits_emit_event ds bs : fits (emit_event E ds bs).
Proof.
  unfold emit_event. destruct bs as [bs|]; [|apply fits_ret]. cbn zeta.
  apply fits_bind; [apply fits_pack_all|]. intros [|]; [|apply fits_ret].
  apply fits_bind; [apply fits_broadcast_all|]. intros _. apply fits_bind; [apply fits_deferred|]. intros _. apply fits_ret.
Qed.

(** another consumer *)
Section Other.
Variable v : uuid.
Hypothesis NE : v <> u.
Lemma fits_disconnect : fits (disconnect E v).
Proof.
  apply fits_bind; [apply fits_look|]. intros [c|]; [|apply fits_ret].
  destruct (c_disc E c); [apply fits_ret|]. apply fits_bind; [apply fits_upd; exact NE|]. intros _.
  apply fits_bind; [apply fits_world|]. intros ok. apply fits_bind; [apply fits_emit; exact NE|]. intros _.
  destruct ok; [apply fits_ret|apply fits_stop].
Qed.
Lemma fits_ident_err e : e <> ENoKey u -> fits (bindp E (ident_at E v) (fun i => emit_error E e (Some v) i)).
Proof.
  intros H. apply fits_bind; [apply fits_ident_at|]. intros i. apply fits_emit_error; [exact H|congruence].
Qed.
Lemma fits_expel e : e <> ENoKey u -> fits (expel E v e).
Proof. intros H. apply fits_bind; [apply fits_disconnect|]. intros _. apply fits_ident_err. exact H. Qed.
Lemma fits_responsing : fits (responsing_err E v).
Proof.
  apply fits_bind; [destruct (e_cs E); auto using fits_ret, fits_disconnect|]. intros _.
  destruct (e_cs E); auto using fits_ret; apply fits_ident_err; discriminate.
Qed.
Lemma fits_not_assigned : fits (not_assigned E v).
Proof.
  apply fits_bind; [destruct (e_is E); auto using fits_ret, fits_disconnect|]. intros _.
  destruct (e_is E); auto using fits_ret; apply fits_ident_err; discriminate.
Qed.
End Other.

(** a request, for any consumer *)
Lemma fits_process_request v r i n m : fits (process_request E v r i n m).
Proof.
  apply fits_bind; [apply fits_get_tab|]. intros t. apply fits_bind; [apply fits_world|]. intros res.
  apply fits_bind; [apply fits_emit; exact I|]. intros _. apply fits_bind.
  { destruct res; [apply fits_ret|]. destruct (Nat.ltb _ _); [|apply fits_ret].
    apply fits_bind; [apply fits_pack_all|]. intros. apply fits_ret. }
  intros [[x l]|]; [|apply fits_ret]. apply fits_bind; [apply fits_pack_send; intros; exact I|].
  intros [|]; [|apply fits_ret]. apply fits_bind; [apply fits_broadcast_all|]. intros _.
  apply fits_bind; [apply fits_deferred|]. intros _. apply fits_ret.
Qed.
Lemma fits_process_beacon v b i n m : fits (process_beacon E v b i n m).
Proof.
  apply fits_bind; [apply fits_get_tab|]. intros t. apply fits_bind; [apply fits_world|]. intros ok.
  apply fits_bind; [apply fits_emit; exact I|]. intros _. destruct ok; [|apply fits_ret].
  apply fits_bind; [apply fits_pack_send; intros; exact I|]. intros [|]; [|apply fits_ret].
  apply fits_bind; [apply fits_deferred|]. intros _. apply fits_ret.
Qed.

Lemma fits_dispatch v c h m : v <> u -> fits (dispatch E v c h m).
Proof.
  intros NE. unfold dispatch. destruct (e_request E m) as [r|].
  - apply fits_bind; [apply fits_process_request|]. intros [|]; [apply fits_ret|apply fits_responsing; exact NE].
  - destruct (e_beacon E m) as [b|]; [|apply fits_ret]. apply fits_bind; [apply fits_process_beacon|].
    intros [|]; [apply fits_ret|]. apply fits_emit_error; [discriminate|congruence].
Qed.
Lemma fits_handle v asg hk h m c : v <> u -> fits (handle E v asg hk h m c).
Proof.
  intros NE. assert (NK : ENoKey v <> ENoKey u) by congruence. unfold handle.
  match goal with |- fits (match e_self E m with Some k => if _ then ?x else _ | None => _ end) =>
    assert (O : fits x) end.
  { destruct (e_hash E m) as [pw|].
    - apply fits_bind; [destruct (hash_valid E pw); [apply fits_upd; exact NE|apply fits_ret]|]. intros _.
      apply fits_bind; [apply fits_pack_send; congruence|]. intros ok.
      apply fits_bind; [destruct ok; [apply fits_ret|apply fits_responsing; exact NE]|]. intros _.
      destruct (hash_valid E pw); [apply fits_ret|apply fits_expel; assumption].
    - destruct (negb (c_hash E c)); [apply fits_expel; assumption|]. destruct (negb hk); [apply fits_expel; assumption|].
      destruct (negb asg && _); [apply fits_not_assigned; exact NE|apply fits_dispatch; exact NE]. }
  destruct (e_self E m); [|exact O]. destruct (c_hash E c); [exact O|].
  apply fits_bind; [apply fits_upd; exact NE|]. intros _. apply fits_bind; [apply fits_pack_send; congruence|].
  intros [|]; [apply fits_ret|apply fits_responsing; exact NE].
Qed.
Lemma fits_loop v asg hk ms : v <> u -> fits (loop E v asg hk ms).
Proof.
  intros NE. induction ms as [|[h m] ms IH]; cbn [loop]; [apply fits_ret|].
  apply fits_bind; [apply fits_look|]. intros [c|]; [|apply fits_ret].
  apply fits_bind; [apply fits_emit; exact NE|]. intros _. apply fits_bind; [apply fits_handle; exact NE|]. intros _. exact IH.
Qed.
Lemma fits_received v d : v <> u -> fits (process_received_data E v d).
Proof.
  intros NE. apply fits_bind; [apply fits_look|]. intros [c|]; [|apply fits_responsing; exact NE].
  destruct (negb (c_conf E c)); [apply fits_expel; [exact NE|discriminate]|].
  destruct (c_disc E c); [apply fits_ret|]. destruct (chunk _ _ _ _) as [[|e|] b].
  - apply fits_bind; [apply fits_upd; exact NE|]. intros _. apply fits_loop. exact NE.
  - apply fits_bind; [apply fits_upd; exact NE|]. intros _. apply fits_responsing. exact NE.
  - apply fits_panic.
Qed.
Lemma fits_opt_ident w : fits (opt_ident E w).
Proof. destruct w; [apply fits_ident_at|apply fits_ret]. Qed.

(** ** What is known about [u] *)
Record flags (tr : list out) (c : consumer) : Prop := mkFlags {
  g_conf : forall n ok, In (OSend E u n PConfirm ok) tr -> c_conf E c = true;
  g_self : forall n v ok, In (OSend E u n (PSelf v) ok) tr -> has_key E c = true;
  g_hash : forall n ok, In (OSend E u n (PHash true) ok) tr -> c_hash E c = true;
  g_asg : In (OSetAssigned E u) tr -> c_assigned E c <> None;
  g_disc : c_disc E c = true <-> exists ok, In (ODisc E u ok) tr;
  g_key : c_hash E c = true -> has_key E c = true
}.

(** an answer to [u] could not be packed, or the transport refused it *)
Definition failed (tr : list out) : Prop :=
  (exists n p, In (OUnpacked E (Some u) n p) tr) \/ exists n p, In (OSend E u n p false) tr.
Definition cut_on_error : bool := match e_cs E with SDisc | SEmitDisc => true | _ => false end.
Definition cut_unassigned : bool := match e_is E with IDisc | IEmitDisc => true | _ => false end.
Definition strict : bool := match e_is E with IIgnore | ILog => false | _ => true end.

(** why the producer disconnects [u] *)
Definition cause (tr : list out) : Prop :=
  (cut_on_error = true /\ failed tr) \/ (cut_unassigned = true /\ ~ In (OSetAssigned E u) tr).

(** a request or beacon the producer has to serve *)
Definition wanted (pre : list out) (m : e_msg E) : Prop :=
  e_self E m = None /\ e_hash E m = None /\ (e_request E m <> None \/ e_beacon E m <> None) /\
  (strict = true -> In (OSetAssigned E u) pre).
Definition served (m : e_msg E) (o : out) : Prop :=
  match e_request E m with
  | Some r => exists ids res, o = OCall E u r m ids res
  | None => exists b ids ok, e_beacon E m = Some b /\ o = OBeacon E u b m ids ok
  end.

Definition due (tr : list out) (m : e_msg E) : Prop :=
  exists pre h, tr = pre ++ [OHandle E u h m] /\ wanted pre m.

Definition ok_at (tr : list out) (o : out) : Prop :=
  match o with
  | ODisc _ v _ => v = u -> cause tr
  | OError _ e w => e <> ENoKey u /\ (e = ENotConfirmed -> w <> Some u)
  | _ => True
  end /\ forall m, due tr m -> served m o.

Definition Good (tr : list out) : Prop := forall t1 o t2, tr = t1 ++ o :: t2 -> ok_at t1 o.

Lemma Good_nil : Good [].
Proof. intros [|x t1] o t2 Q; discriminate Q. Qed.
Lemma Good_snoc tr o : Good tr -> ok_at tr o -> Good (tr ++ [o]).
Proof.
  intros G K t1 x t2 Q. destruct t2 as [|y t2] using rev_ind.
  - apply app_inj_tail in Q. destruct Q as [<- <-]. exact K.
  - clear IHt2. rewrite app_comm_cons, app_assoc in Q. apply app_inj_tail in Q. destruct Q as [Q _]. eapply G. exact Q.
Qed.
Lemma due_last tr o m : due (tr ++ [o]) m -> exists h, o = OHandle E u h m /\ wanted tr m.
Proof. intros (pre & h & Q & W). apply app_inj_tail in Q. destruct Q as [-> ->]. eauto. Qed.
Lemma alien_not_due tr o m : alien o -> ~ due (tr ++ [o]) m.
Proof. intros A D. destruct (due_last _ _ _ D) as (h & -> & _). apply A. reflexivity. Qed.
Lemma alien_ok tr o : alien o -> (forall m, due tr m -> served m o) -> ok_at tr o.
Proof. intros A D. split; [|exact D]. destruct o; cbn in A |- *; auto. intros W. contradiction. Qed.

Definition idle (tr : list out) : Prop := forall m, ~ due tr m.

Lemma aliens_good t : forall tr, Good tr -> Forall alien t ->
  (forall m, due tr m -> exists o t', t = o :: t' /\ served m o) -> Good (tr ++ t) /\ idle (tr ++ t).
Proof.
  induction t as [|o t IH]; intros tr G F D.
  - rewrite app_nil_r. split; [exact G|]. intros m K. destruct (D m K) as (o & t' & Q & _). discriminate Q.
  - inversion F as [|? ? A F']; subst. replace (tr ++ o :: t) with ((tr ++ [o]) ++ t) by (rewrite <- app_assoc; reflexivity).
    apply IH; [|exact F'|].
    + apply Good_snoc; [exact G|]. apply alien_ok; [exact A|]. intros m K.
      destruct (D m K) as (o' & t' & Q & S). injection Q as <- <-. exact S.
    + intros m K. elim (alien_not_due tr o m A K).
Qed.

Lemma flags_alien tr t c : flags tr c -> Forall alien t -> flags (tr ++ t) c.
Proof.
  intros F A. rewrite Forall_forall in A. destruct F. split; auto.
  - intros n ok J. apply in_app_iff in J. destruct J as [J|J]; [eauto|]. elim (A _ J eq_refl).
  - intros n v ok J. apply in_app_iff in J. destruct J as [J|J]; [eauto|]. elim (A _ J eq_refl).
  - intros n ok J. apply in_app_iff in J. destruct J as [J|J]; [eauto|]. elim (A _ J eq_refl).
  - intros J. apply in_app_iff in J. destruct J as [J|J]; [auto|]. elim (A _ J eq_refl).
  - rewrite g_disc0. split; intros (ok & J); exists ok.
    + apply in_app_iff. auto.
    + apply in_app_iff in J. destruct J as [J|J]; [auto|]. elim (A _ J eq_refl).
Qed.
Lemma flags_snoc tr o c : flags tr c -> alien o -> flags (tr ++ [o]) c.
Proof. intros F A. apply flags_alien; [exact F|]. constructor; [exact A|constructor]. Qed.
Lemma alien_asg t : Forall alien t -> ~ In (OSetAssigned E u) t.
Proof. intros A J. rewrite Forall_forall in A. exact (A _ J eq_refl). Qed.

(** ** A logic: the trace so far is good, and something is known about [u] *)
Definition known (K : list out -> consumer -> Prop) (tr : list out) (s : st) : Prop :=
  exists c, find E u (s_tab E s) = Some c /\ flags tr c /\ K tr c.

(** what holds when the producer stops or panics *)
Definition over (tr : list out) : Prop := Good tr /\ idle tr.

Definition H {A} (Pre : list out -> st -> Prop) (m : P A) (Post : A -> list out -> st -> Prop) : Prop :=
  forall tr s, Good tr -> Pre tr s -> wp E m s (fun t s' r => Good (tr ++ t) /\
    match r with PGo a => Post a (tr ++ t) s' | _ => idle (tr ++ t) end).

Lemma H_bind {A B} (m : P A) (f : A -> P B) Pre Mid Post :
  H Pre m Mid -> (forall a, H (Mid a) (f a) Post) -> H Pre (bindp E m f) Post.
Proof.
  intros Hm Hf tr s G K. apply wp_bind. eapply wp_mono; [apply (Hm tr s G K)|]. cbv beta.
  intros t s1 [a|e|] (G1 & K1); auto. eapply wp_mono; [apply (Hf a (tr ++ t) s1 G1 K1)|]. cbv beta.
  intros t2 s2 r2. rewrite <- app_assoc. auto.
Qed.
Lemma H_pre {A} (m : P A) (Pre Pre' : list out -> st -> Prop) Post : (forall tr s, Pre tr s -> Pre' tr s) -> H Pre' m Post -> H Pre m Post.
Proof. intros W Hm tr s G K. apply Hm; auto. Qed.
Lemma H_post {A} (m : P A) (Pre : list out -> st -> Prop) (Post Post' : A -> list out -> st -> Prop) :
  (forall a tr s, Post a tr s -> Post' a tr s) -> H Pre m Post -> H Pre m Post'.
Proof. intros W Hm tr s G K. eapply wp_mono; [exact (Hm tr s G K)|]. cbv beta. intros t s' [a|e|] (G1 & K1); auto. Qed.
Lemma H_ret {A} (a : A) (Pre : list out -> st -> Prop) : H Pre (ret E a) (fun _ => Pre).
Proof. intros tr s G K. unfold wp, ret. cbn [fst snd]. rewrite app_nil_r. auto. Qed.

(** predicates that survive what does not concern [u], or what is not an
    assignment *)
Definition stable (K : list out -> consumer -> Prop) : Prop :=
  (forall tr t c, K tr c -> ~ In (OSetAssigned E u) t -> K (tr ++ t) c) /\
  forall tr c, K tr c -> K tr (set_disc E c).

Definition at_ease (K : list out -> consumer -> Prop) (tr : list out) (s : st) : Prop := known K tr s /\ idle tr.

Section Known.
Variable K : list out -> consumer -> Prop.
Hypothesis SK : stable K.

Lemma known_fits tr s t (s' : st) : known K tr s -> Forall alien t -> find E u (s_tab E s') = find E u (s_tab E s) -> known K (tr ++ t) s'.
Proof.
  intros (c & Fc & Fl & Kc) At Fs. exists c. rewrite Fs. split; [exact Fc|].
  split; [apply flags_alien; assumption|]. apply SK; [exact Kc|apply alien_asg; exact At].
Qed.

Lemma H_fits {A} (m : P A) : fits m -> H (at_ease K) m (fun _ => at_ease K).
Proof.
  intros F tr s G (Kn & I). eapply wp_mono; [apply F|]. cbv beta. intros t s' r (At & Fs).
  destruct (aliens_good t tr G At) as (G' & I'). { intros x D. elim (I x D). }
  split; [exact G'|]. destruct r; auto. split; [|exact I']. eapply known_fits; eauto.
Qed.

Lemma failed_app a b : failed a -> failed (a ++ b).
Proof. intros [(n & p & J)|(n & p & J)]; [left|right]; exists n, p; apply in_app_iff; auto. Qed.
Lemma failed_app_r a b : failed b -> failed (a ++ b).
Proof. intros [(n & p & J)|(n & p & J)]; [left|right]; exists n, p; apply in_app_iff; auto. Qed.

Lemma H_disconnect : H (fun tr s => at_ease K tr s /\ cause tr) (disconnect E u) (fun _ => at_ease K).
Proof.
  intros tr s G (((c & Fc & Fl & Kc) & I) & C). unfold disconnect. apply wp_bind_look. rewrite Fc.
  destruct (c_disc E c) eqn:D.
  { unfold wp, ret. cbn [fst snd]. rewrite app_nil_r. split; [exact G|]. split; [|exact I]. exists c. auto. }
  eapply wp_bind_upd; [exact Fc|]. apply wp_bind. unfold wp at 1, world. cbn [s_w fst snd].
  destruct (w_disconnect E (s_w E s) u) as [w ok]. cbn [fst snd]. apply wp_bind_emit.
  assert (GG : Good (tr ++ [ODisc E u ok])).
  { apply Good_snoc; [exact G|]. split; [intros _; exact C|]. intros m Dm. elim (I m Dm). }
  assert (II : idle (tr ++ [ODisc E u ok])).
  { intros m Dm. destruct (due_last _ _ _ Dm) as (h & Q & _). discriminate Q. }
  assert (NA : ~ In (OSetAssigned E u) [ODisc E u ok]) by (intros [Q|[]]; discriminate Q).
  destruct ok; unfold wp, ret, stop; cbn [fst snd s_tab app].
  - split; [exact GG|]. split; [|exact II]. exists (set_disc E c). split; [eapply find_put_same; exact Fc|].
    split; [|apply SK; apply SK; assumption].
    destruct Fl. split; cbn [set_disc c_conf c_hash c_assigned c_disc c_key has_key] in *.
    + intros n ok J. apply in_app_iff in J. destruct J as [J|[J|[]]]; [eauto|discriminate J].
    + intros n v ok J. apply in_app_iff in J. destruct J as [J|[J|[]]]; [eapply g_self0; eauto|discriminate J].
    + intros n ok J. apply in_app_iff in J. destruct J as [J|[J|[]]]; [eauto|discriminate J].
    + intros J. apply in_app_iff in J. destruct J as [J|[J|[]]]; [auto|discriminate J].
    + split; [|reflexivity]. intros _. exists true. apply in_app_iff. right. left. reflexivity.
    + exact g_key0.
  - split; assumption.
Qed.

Lemma H_ident_err e : e <> ENoKey u -> e <> ENotConfirmed ->
  H (at_ease K) (bindp E (ident_at E u) (fun i => emit_error E e (Some u) i)) (fun _ => at_ease K).
Proof.
  intros H1 H2. apply H_fits. apply fits_bind; [apply fits_ident_at|]. intros i. apply fits_emit_error; [exact H1|contradiction].
Qed.

Lemma H_responsing : H (fun tr s => at_ease K tr s /\ failed tr) (responsing_err E u) (fun _ => at_ease K).
Proof.
  eapply H_bind with (Mid := fun _ => at_ease K).
  - destruct (e_cs E) eqn:CS.
    1,4: eapply H_pre; [|apply H_ret]; intros tr s (Q & _); exact Q.
    all: eapply H_pre; [|apply H_disconnect]; intros tr s (Q & F); split; [exact Q|]; left; unfold cut_on_error; rewrite CS; auto.
  - intros _. destruct (e_cs E); try apply H_ret; apply H_ident_err; discriminate.
Qed.

Lemma H_not_assigned : H (fun tr s => at_ease K tr s /\ ~ In (OSetAssigned E u) tr) (not_assigned E u) (fun _ => at_ease K).
Proof.
  eapply H_bind with (Mid := fun _ => at_ease K).
  - destruct (e_is E) eqn:IS.
    1,2,5: eapply H_pre; [|apply H_ret]; intros tr s (Q & _); exact Q.
    all: eapply H_pre; [|apply H_disconnect]; intros tr s (Q & F); split; [exact Q|]; right; unfold cut_unassigned; rewrite IS; auto.
  - intros _. destruct (e_is E); try apply H_ret; apply H_ident_err; discriminate.
Qed.

(** sending something to [u] that changes what is known *)
Definition allowed (p : payload (e_user E)) (c : consumer) : Prop :=
  match p with
  | PConfirm => c_conf E c = true
  | PSelf _ => has_key E c = true
  | PHash true => c_hash E c = true
  | _ => True
  end.

Lemma H_send n p : H (fun tr s => at_ease (fun tr c => K tr c /\ allowed p c) tr s) (send E u n p)
  (fun b tr s => at_ease K tr s /\ (b = false -> failed tr)).
Proof.
  intros tr s G ((c & Fc & Fl & Kc & Al) & I). unfold send. apply wp_bind. unfold wp at 1, world.
  destruct (w_send E (s_w E s) u n p) as [w ok]. cbn [fst snd]. apply wp_bind_emit. unfold wp, ret. cbn [fst snd s_tab app].
  split. { apply Good_snoc; [exact G|]. split; [exact Logic.I|]. intros m D. elim (I m D). }
  split; [split|].
  - exists c. split; [exact Fc|]. split.
    + destruct Fl. split.
      * intros k o J. apply in_app_iff in J. destruct J as [J|[J|[]]]; [eauto|]. inversion J; subst. exact Al.
      * intros k v o J. apply in_app_iff in J. destruct J as [J|[J|[]]]; [eauto|]. inversion J; subst. exact Al.
      * intros k o J. apply in_app_iff in J. destruct J as [J|[J|[]]]; [eauto|]. inversion J; subst. exact Al.
      * intros J. apply in_app_iff in J. destruct J as [J|[J|[]]]; [auto|discriminate J].
      * rewrite g_disc0. split; intros (o & J); exists o; [apply in_app_iff; auto|].
        apply in_app_iff in J. destruct J as [J|[J|[]]]; [exact J|discriminate J].
      * exact g_key0.
    + apply SK; [exact Kc|]. intros [Q|[]]; discriminate Q.
  - intros m D. destruct (due_last _ _ _ D) as (h & Q & _). discriminate Q.
  - intros ->. right. exists n, p. apply in_app_iff. right. left. reflexivity.
Qed.
End Known.

Lemma stable_and K p : stable K -> stable (fun tr c => K tr c /\ allowed p c).
Proof.
  intros [S1 S2]. split.
  - intros tr t c (A & B) N. auto.
  - intros tr c (A & B). split; [auto|]. destruct p as [| [|] | | | |]; exact B.
Qed.

Lemma wp_try_pack n p s : wp E (try_pack E (Some u) n p) s (fun t _ r => r = PGo false -> failed t).
Proof.
  apply wp_intro. intros t s' r Em. unfold try_pack, bindp, world in Em. destruct (w_pack E (s_w E s) p) as [w [|]]; inversion Em; subst.
  - discriminate.
  - intros _. left. exists n, p. left. reflexivity.
Qed.

Lemma H_pack_send K n p : stable K -> H (at_ease (fun tr c => K tr c /\ allowed p c)) (pack_send E u n p)
  (fun b tr s => at_ease K tr s /\ (b = false -> failed tr)).
Proof.
  intros SK. eapply H_bind with (Mid := fun b tr s => at_ease (fun tr c => K tr c /\ allowed p c) tr s /\ (b = false -> failed tr)).
  - intros tr s G Q. pose proof (H_fits _ (stable_and K p SK) _ (fits_try_pack (Some u) n p) tr s G Q) as W.
    eapply wp_mono; [apply wp_and; [exact W|exact (wp_try_pack n p s)]|].
    cbv beta. intros t s' r ((W1 & W2) & W3). split; [exact W1|]. destruct r; [|exact W2..].
    split; [exact W2|]. intros Q'. apply failed_app_r, W3. rewrite Q'. reflexivity.
  - intros [|].
    + eapply H_pre; [|apply H_send; exact SK]. intros tr s (Q & _). exact Q.
    + eapply H_post; [|apply H_ret]. cbv beta. intros a tr s (((c & A & B & C & D) & I) & Fa). split; [|intros _; exact (Fa eq_refl)]. split; [|exact I]. exists c. auto.
Qed.

(** requests and beacons of [u] *)
Definition owns (m : P bool) : Prop := forall s, wp E m s (fun t _ r => r = PGo false -> failed t).
Lemma owns_bind {A} (m : P A) (f : A -> P bool) : (forall a, owns (f a)) -> owns (bindp E m f).
Proof.
  intros Hf s. apply wp_bind. apply wp_intro. intros t s1 [a|e|] _; try discriminate.
  eapply wp_mono; [apply Hf|]. cbv beta. intros t2 s2 r2 W Q. apply failed_app_r. auto.
Qed.
Lemma owns_true : owns (ret E true).
Proof. intros s Q. discriminate Q. Qed.
Lemma wp_bool (m : P bool) (f : bool -> P bool) : owns m -> owns (f true) -> f false = ret E false -> owns (bindp E m f).
Proof.
  intros Hm Ht Hf s. apply wp_bind. eapply wp_mono; [apply Hm|]. cbv beta. intros t s1 [[|]|e|] W; try discriminate.
  - eapply wp_mono; [apply Ht|]. cbv beta. intros t2 s2 r2 W2 Q. apply failed_app_r. auto.
  - rewrite Hf. unfold wp, ret. cbn [fst snd]. intros _. rewrite app_nil_r. auto.
Qed.
Lemma owns_pack_send n p : owns (pack_send E u n p).
Proof.
  apply wp_bool; [intros s; apply wp_try_pack| |reflexivity].
  intros s. unfold send. apply wp_bind. unfold wp at 1, world. destruct (w_send E (s_w E s) u n p) as [w ok]. cbn [fst snd].
  apply wp_bind_emit. unfold wp, ret. cbn [fst snd]. intros Q. inversion Q; subst. right. exists n, p. left. reflexivity.
Qed.
Lemma owns_pack_all l : owns (pack_all E (Some u) l).
Proof.
  induction l as [|[us x] l IH]; cbn [pack_all]; [apply owns_true|].
  apply wp_bool; [intros s; apply wp_try_pack|exact IH|reflexivity].
Qed.
Lemma owns_process_request r i n m : owns (process_request E u r i n m).
Proof.
  apply owns_bind. intros t. apply owns_bind. intros res. apply owns_bind. intros _.
  assert (Z : forall x l, owns (bindp E (pack_send E u n (PAnswer x)) (fun ok : bool =>
    if ok then bindp E (broadcast_all E l) (fun _ => bindp E (deferred E) (fun _ => ret E true)) else ret E false))).
  { intros x l. apply wp_bool; [apply owns_pack_send| |reflexivity].
    apply owns_bind. intros _. apply owns_bind. intros _. apply owns_true. }
  assert (Y : forall (m0 : P (option (e_user E * list (list uuid * e_user E)))),
    (forall s, wp E m0 s (fun t _ q => q = PGo None -> failed t)) ->
    owns (bindp E m0 (fun todo => match todo with
      | None => ret E false
      | Some (x, l) => bindp E (pack_send E u n (PAnswer x)) (fun ok : bool =>
          if ok then bindp E (broadcast_all E l) (fun _ => bindp E (deferred E) (fun _ => ret E true)) else ret E false)
      end))).
  { intros m0 W s. apply wp_bind. eapply wp_mono; [apply W|]. cbv beta. intros t0 s1 [[[x l]|]|e|] W1; try discriminate.
    - eapply wp_mono; [apply Z|]. cbv beta. intros t2 s2 r2 W2 Q. apply failed_app_r. auto.
    - unfold wp, ret. cbn [fst snd]. intros _. rewrite app_nil_r. auto. }
  apply Y. intros s. destruct res as [x|k x bs]; [discriminate|]. destruct (Nat.ltb _ _); [|discriminate]. cbn zeta.
  apply wp_bind. eapply wp_mono; [apply owns_pack_all|]. cbv beta. intros t0 s1 [[|]|e|] W; try discriminate.
  unfold wp, ret. cbn [fst snd]. intros _. rewrite app_nil_r. auto.
Qed.

Lemma head_process_request r i n m s :
  wp E (process_request E u r i n m) s (fun t _ _ => exists ids res t', t = OCall E u r m ids res :: t').
Proof.
  unfold process_request. apply wp_bind. unfold wp at 1, get_tab. cbn [fst snd]. apply wp_bind. unfold wp at 1, world.
  match goal with |- context [let '(w, a) := ?x in _] => destruct x as [w res] end. cbn [fst snd]. apply wp_bind_emit.
  apply wp_intro. intros t s' q _. cbn [app]. eauto.
Qed.
Lemma head_process_beacon b i n m s :
  wp E (process_beacon E u b i n m) s (fun t _ _ => exists ids ok t', t = OBeacon E u b m ids ok :: t').
Proof.
  unfold process_beacon. apply wp_bind. unfold wp at 1, get_tab. cbn [fst snd]. apply wp_bind. unfold wp at 1, world.
  match goal with |- context [let '(w, a) := ?x in _] => destruct x as [w res] end. cbn [fst snd]. apply wp_bind_emit.
  apply wp_intro. intros t s' q _. cbn [app]. eauto.
Qed.

Lemma H_dispatch K c h m : stable K ->
  H (fun tr s => known K tr s /\ forall m', due tr m' -> m' = m) (dispatch E u c h m) (fun _ => at_ease K).
Proof.
  intros SK. unfold dispatch. destruct (e_request E m) as [r|] eqn:R.
  - eapply H_bind with (Mid := fun b tr s => at_ease K tr s /\ (b = false -> failed tr)).
    + intros tr s G (Kn & D). eapply wp_mono.
      { apply wp_and; [apply (head_process_request r (ident_of E u c) (h_seq h) m s)|].
        apply wp_and; [apply (fits_process_request u r (ident_of E u c) (h_seq h) m s)|apply (owns_process_request r (ident_of E u c) (h_seq h) m s)]. }
      cbv beta. intros t s' q ((ids & res & t' & ->) & (At & Fs) & Ow).
      destruct (aliens_good _ tr G At) as (G' & I').
      { intros m' D'. rewrite (D m' D'). exists (OCall E u r m ids res), t'. split; [reflexivity|]. unfold served. rewrite R. eauto. }
      split; [exact G'|]. destruct q as [b|e|]; try exact I'. split; [split; [eapply known_fits; eauto|exact I']|].
      intros Q'. apply failed_app_r, Ow. rewrite Q'. reflexivity.
    + intros [|]; [eapply H_pre; [|apply H_ret]; intros tr s (Q & _); exact Q|].
      eapply H_pre; [|apply H_responsing; exact SK]. intros tr s (Q & F). auto.
  - destruct (e_beacon E m) as [b|] eqn:B.
    + eapply H_bind with (Mid := fun _ => at_ease K).
      * intros tr s G (Kn & D). eapply wp_mono.
        { apply wp_and; [apply (head_process_beacon b (ident_of E u c) (h_seq h) m s)|apply (fits_process_beacon u b (ident_of E u c) (h_seq h) m s)]. }
        cbv beta. intros t s' q ((ids & res & t' & ->) & (At & Fs)).
        destruct (aliens_good _ tr G At) as (G' & I').
        { intros m' D'. rewrite (D m' D'). exists (OBeacon E u b m ids res), t'. split; [reflexivity|]. unfold served. rewrite R. eauto. }
        split; [exact G'|]. destruct q as [b'|e|]; try exact I'. split; [eapply known_fits; eauto|exact I'].
      * intros [|]; [apply H_ret|]. apply H_fits; [exact SK|]. apply fits_emit_error; discriminate.
    + eapply H_pre; [|apply H_ret]. intros tr s (Kn & D). split; [exact Kn|]. intros m' D'. pose proof (D m' D') as ->.
      destruct D' as (pre & h' & _ & (_ & _ & [W|W] & _)); congruence.
Qed.

(** ** One message *)

(** what is known during the handling of one chunk: the buffer, the flags the
    producer has taken before the loop, and whether the hash was accepted before *)
Section Chunk.
Variables (B : rbuf (e_msg E)) (hk hs asg : bool).
Hypothesis ASG : asg = false -> strict = true.

Definition during (tr : list out) (c : consumer) : Prop :=
  c_buf E c = B /\ (c_hash E c = true -> hk = true) /\ (hs = true -> c_hash E c = true) /\
  (asg = false -> ~ In (OSetAssigned E u) tr) /\ (hk = true -> has_key E c = true).
Lemma during_stable : stable during.
Proof.
  split.
  - intros tr t c (Q1 & Q2 & Q3 & Q4 & Q5) N. split; [exact Q1|]. split; [exact Q2|]. split; [exact Q3|]. split; [|exact Q5].
    intros A J. apply in_app_iff in J. destruct J as [J|J]; [exact (Q4 A J)|exact (N J)].
  - intros tr c Q. exact Q.
Qed.

(** a message of a consumer that keeps to the protocol *)
Definition fine (m : e_msg E) : Prop :=
  (e_self E m <> None /\ e_hash E m = None) \/
  (e_self E m = None /\ e_hash E m = Some (e_phash E, e_whash E) /\ hk = true) \/
  (e_self E m = None /\ e_hash E m = None /\ hs = true).

Lemma has_key_set_key k ov c : has_key E (set_key E k ov c) = true.
Proof. reflexivity. Qed.

Lemma valid_own : hash_valid E (e_phash E, e_whash E) = true.
Proof. unfold hash_valid. cbn [fst snd]. apply andb_true_iff. split; apply bytes_eqb_eq; reflexivity. Qed.

Lemma H_handle h m c : fine m ->
  H (fun tr s => find E u (s_tab E s) = Some c /\ flags tr c /\ during tr c /\
       exists pre, tr = pre ++ [OHandle E u h m])
    (handle E u asg hk h m c) (fun _ => at_ease during).
Proof.
  intros Fm. pose proof during_stable as SK.
  assert (IDLE : forall pre, (e_self E m <> None \/ e_hash E m <> None \/ (asg = false /\ ~ In (OSetAssigned E u) pre)) -> idle (pre ++ [OHandle E u h m])).
  { intros pre W m' D. destruct (due_last _ _ _ D) as (h' & Q & (W1 & W2 & _ & W4)). injection Q as _ <-.
    destruct W as [W|[W|(W & W')]]; try congruence. apply W', W4, ASG, W. }
  (* the part after the self key *)
  assert (OTHER : (c_hash E c = true \/ e_self E m = None) ->
    H (fun tr s => find E u (s_tab E s) = Some c /\ flags tr c /\ during tr c /\ exists pre, tr = pre ++ [OHandle E u h m])
    (match e_hash E m with
    | Some pw =>
      bindp E (if hash_valid E pw then upd E u (set_hash E) else ret E tt) (fun _ =>
      bindp E (pack_send E u (h_seq h) (PHash (hash_valid E pw))) (fun ok =>
      bindp E (if ok then ret E tt else responsing_err E u) (fun _ =>
      if hash_valid E pw then ret E tt else expel E u (ENoKey u))))
    | None =>
      if negb (c_hash E c) then expel E u (ENoKey u)
      else if negb hk then expel E u (ENoKey u)
      else if negb asg && match e_is E with IIgnore => false | _ => true end then not_assigned E u
      else dispatch E u c h m
    end) (fun _ => at_ease during)).
  { intros CH. destruct (e_hash E m) as [pw|] eqn:Hm.
    - destruct Fm as [(_ & F)|[(F1 & F2 & F3)|(_ & F & _)]]; [congruence| |congruence]. rewrite Hm in F2. injection F2 as ->.
      rewrite valid_own.
      eapply H_bind with (Mid := fun _ => at_ease (fun tr c => during tr c /\ allowed (PHash true) c)).
      { intros tr s G (Fc & Fl & (D1 & D2 & D3 & D4 & D5) & (pre & ->)). unfold wp, upd. rewrite Fc. cbn [fst snd s_tab]. rewrite app_nil_r.
        split; [exact G|]. split.
        - exists (set_hash E c). split; [eapply find_put_same; exact Fc|]. split.
          + destruct Fl as [f1 f2 f3 f4 f5 f6]. split; auto.
          + split; [|reflexivity]. split; [exact D1|]. split; [intros _; exact F3|]. split; [reflexivity|]. split; [exact D4|exact D5].
        - apply IDLE. right. left. congruence. }
      intros _. eapply H_bind; [apply H_pack_send; exact SK|]. intros ok.
      eapply H_bind with (Mid := fun _ => at_ease during); [|intros _; apply H_ret].
      destruct ok; [eapply H_pre; [|apply H_ret]; intros tr s (Q & _); exact Q|].
      eapply H_pre; [|apply H_responsing; exact SK]. intros tr s (Q & F). auto.
    - intros tr s G (Fc & Fl & D & (pre & Q)).
      assert (HC : c_hash E c = true).
      { destruct CH as [CH|CH]; [exact CH|]. destruct Fm as [(F & _)|[(_ & F & _)|(_ & _ & F)]]; try congruence. apply D. exact F. }
      assert (HK : hk = true) by (apply D; exact HC). rewrite HC, HK. cbn [negb].
      assert (Kn : known during tr s) by (exists c; auto).
      destruct (negb asg && match e_is E with IIgnore => false | _ => true end) eqn:NA.
      + apply andb_true_iff in NA. destruct NA as (NA & _). apply negb_true_iff in NA.
        apply (H_not_assigned _ SK tr s G). assert (NS : ~ In (OSetAssigned E u) tr) by (apply D; exact NA).
        split; [|exact NS]. split; [exact Kn|]. rewrite Q. apply IDLE. right. right. split; [exact NA|].
        intros J. apply NS. rewrite Q. apply in_app_iff. auto.
      + apply (H_dispatch _ c h m SK tr s G). split; [exact Kn|]. intros m' Dm. rewrite Q in Dm.
        destruct (due_last _ _ _ Dm) as (h' & Q' & _). injection Q' as _ <-. reflexivity. }
  unfold handle. destruct (e_self E m) as [k|] eqn:Sm; [|apply OTHER; auto].
  destruct (c_hash E c) eqn:HC; [apply OTHER; auto|].
  eapply H_bind with (Mid := fun _ => at_ease (fun tr c => during tr c /\ allowed (PSelf u) c)).
  { intros tr s G (Fc & Fl & (D1 & D2 & D3 & D4 & D5) & (pre & ->)). unfold wp, upd. rewrite Fc. cbn [fst snd s_tab]. rewrite app_nil_r.
    split; [exact G|]. split.
    - exists (set_key E k true c). split; [eapply find_put_same; exact Fc|]. split.
      + destruct Fl as [f1 f2 f3 f4 f5 f6]. split; auto.
      + split; [|reflexivity]. split; [exact D1|]. split; [exact D2|]. split; [exact D3|]. split; [exact D4|]. reflexivity.
    - apply IDLE. left. congruence. }
  intros _. eapply H_bind; [apply H_pack_send; exact SK|]. intros [|].
  - eapply H_pre; [|apply H_ret]; intros tr s (Q & _); exact Q.
  - eapply H_pre; [|apply H_responsing; exact SK]. intros tr s (Q & F). auto.
Qed.

Lemma H_loop ms : Forall (fun x => fine (snd x)) ms -> H (at_ease during) (loop E u asg hk ms) (fun _ => at_ease during).
Proof.
  induction 1 as [|[h m] ms Fm Fs IH]; cbn [loop]; [apply H_ret|].
  intros tr s G ((c & Fc & Fl & D) & I). apply wp_bind_look. rewrite Fc. cbn [snd] in Fm.
  assert (W : H (fun tr0 s0 => tr0 = tr /\ s0 = s) (bindp E (emit E (OHandle E u h m))
    (fun _ => bindp E (handle E u asg hk h m c) (fun _ => loop E u asg hk ms))) (fun _ => at_ease during)).
  { eapply H_bind with (Mid := fun _ tr1 s1 => find E u (s_tab E s1) = Some c /\ flags tr1 c /\ during tr1 c /\
       exists pre, tr1 = pre ++ [OHandle E u h m]).
    - intros tr0 s0 G0 (-> & ->). unfold wp, emit. cbn [fst snd]. split.
      + apply Good_snoc; [exact G|]. split; [exact Logic.I|]. intros m' Dm. elim (I m' Dm).
      + split; [exact Fc|]. split; [|split; [|eauto]].
        * destruct Fl as [f1 f2 f3 f4 f5 f6]. split; auto.
          -- intros n ok J. apply in_app_iff in J. destruct J as [J|[J|[]]]; [eauto|discriminate J].
          -- intros n v ok J. apply in_app_iff in J. destruct J as [J|[J|[]]]; [eauto|discriminate J].
          -- intros n ok J. apply in_app_iff in J. destruct J as [J|[J|[]]]; [eauto|discriminate J].
          -- intros J. apply in_app_iff in J. destruct J as [J|[J|[]]]; [eauto|discriminate J].
          -- rewrite f5. split; intros (ok & J); exists ok; [apply in_app_iff; auto|].
             apply in_app_iff in J. destruct J as [J|[J|[]]]; [exact J|discriminate J].
        * apply (proj1 during_stable); [exact D|]. intros [Q|[]]; discriminate Q.
    - intros a. eapply H_bind; [apply H_handle; exact Fm|]. intros b. exact IH. }
  apply (W tr s G). auto.
Qed.
End Chunk.

(** ** One chunk of [u] *)
Lemma H_received d hs B c0 ms :
  H (fun tr s => find E u (s_tab E s) = Some c0 /\ flags tr c0 /\ idle tr /\ c_conf E c0 = true /\ (hs = true -> c_hash E c0 = true) /\
       (c_disc E c0 = false -> chunk (e_get E) (e_sig E) (c_buf E c0) d = (COk, mkBuf B ms) /\
          Forall (fun x => fine (has_key E c0) hs (snd x)) ms))
    (process_received_data E u d)
    (fun _ tr s => at_ease (fun _ c => (c_disc E c = false -> c_buf E c = mkBuf B [])) tr s).
Proof.
  intros tr s G (Fc & Fl & I & Cf & Hs & Ch). unfold process_received_data. apply wp_bind_look. rewrite Fc, Cf. cbn [negb].
  destruct (c_disc E c0) eqn:Dc.
  { unfold wp, ret. cbn [fst snd]. rewrite app_nil_r. split; [exact G|]. split; [|exact I]. exists c0.
    split; [exact Fc|]. split; [exact Fl|]. congruence. }
  destruct (Ch eq_refl) as (-> & Fm). eapply wp_bind_upd; [exact Fc|]. cbn [rb_buf rb_queue].
  pose proof (H_loop (mkBuf B []) (has_key E c0) hs (is_assigned E c0)) as L.
  assert (A0 : is_assigned E c0 = false -> strict = true).
  { unfold is_assigned, strict. destruct (c_assigned E c0); [discriminate|]. destruct (e_is E); congruence. }
  specialize (L A0 ms Fm tr (mkSt E (s_w E s) (put E u (set_buf E (mkBuf B []) c0) (s_tab E s)) (s_conf E s)) G).
  eapply wp_mono; [apply L|].
  - split; [|exact I]. exists (set_buf E (mkBuf B []) c0). split; [eapply find_put_same; exact Fc|].
    destruct Fl as [f1 f2 f3 f4 f5 f6]. split; [split; auto|].
    split; [reflexivity|]. split; [exact f6|]. split; [exact Hs|]. split; [|auto].
    intros A J. unfold is_assigned in A. specialize (f4 J). destruct (c_assigned E c0); [discriminate|congruence].
  - cbv beta. intros t s' r (G' & Q). split; [exact G'|]. destruct r; auto. destruct Q as ((c & F1 & F2 & (F3 & _)) & I').
    split; [|exact I']. exists c. auto.
Qed.

(** ** Any other event *)
Definition apart (e : event) : Prop :=
  match e with VConnected v | VDisconnected v | VReceived v _ => v <> u | _ => True end.

Lemma fits_add_connection v : v <> u -> fits (add_connection E v).
Proof.
  intros NE. apply fits_bind; [apply fits_look|]. intros [c|]; [apply fits_stop|].
  apply fits_bind; [apply fits_get_tab|]. intros t. apply fits_bind; [apply fits_world|]. intros bs.
  apply fits_bind; [apply fits_emit; exact I|]. intros _. apply fits_bind; [apply fits_emit_event|]. intros _.
  intros s. unfold wp. cbn [fst snd s_tab find]. split; [constructor|].
  destruct (N.eqb_spec u v); [congruence|reflexivity].
Qed.
Lemma fits_remove_connection v : v <> u -> fits (remove_connection E v).
Proof.
  intros NE. apply fits_bind; [apply fits_look|]. intros [c|]; [|apply fits_ret].
  apply fits_bind. { intros s. unfold wp. cbn [fst snd s_tab]. split; [constructor|]. apply find_drop_other. exact NE. }
  intros _. apply fits_bind; [apply fits_get_tab|]. intros t. apply fits_bind; [apply fits_world|]. intros bs.
  apply fits_bind; [apply fits_emit; exact I|]. intros _. apply fits_bind; [apply fits_emit_event|]. intros _. apply fits_ret.
Qed.

(** while [u] is not disconnected its buffer holds [B], and no messages *)
Definition holds (B : bytes) (_ : list out) (c : consumer) : Prop := c_disc E c = false -> c_buf E c = mkBuf B [].
Lemma holds_stable B : stable (holds B).
Proof. split; [intros tr t c Q _; exact Q|]. intros tr c Q W. discriminate W. Qed.

Lemma H_confirm B : H (at_ease (holds B)) (confirm E) (fun _ => at_ease (holds B)).
Proof.
  pose proof (holds_stable B) as SK.
  intros tr s G Q. unfold confirm. destruct (s_conf E s) as [|v q] eqn:SC.
  { unfold wp. rewrite SC. cbn [fst snd]. rewrite app_nil_r. auto. }
  unfold wp. rewrite SC.
  match goal with |- context [bindp E ?m ?f ?z] => set (mm := bindp E m f); set (zz := z) end.
  change (wp E mm zz (fun t s' r => Good (tr ++ t) /\ match r with PGo a => at_ease (holds B) (tr ++ t) s' | _ => idle (tr ++ t) end)).
  assert (Qz : at_ease (holds B) tr zz) by exact Q. clearbody zz. clear Q SC s q. rename zz into s.
  destruct (N.eqb_spec v u) as [->|NE].
  - destruct Qz as ((c & Fc & Fl & Kc) & I). subst mm. apply wp_bind_look. rewrite Fc. eapply wp_bind_upd; [exact Fc|].
    match goal with |- wp E ?m ?z _ => assert (W : H (at_ease (fun tr c => holds B tr c /\ allowed PConfirm c)) m (fun _ => at_ease (holds B))) end.
    { eapply H_bind; [apply H_fits; [apply stable_and; exact SK|apply fits_try_pack]|]. cbv beta. intros [|].
      - eapply H_bind; [apply H_send; exact SK|]. intros [|].
        + eapply H_pre; [|apply H_ret]. intros tr0 s0 (Q & _). exact Q.
        + intros tr0 s0 G0 ((_ & I0) & _). unfold wp, stop. cbn [fst snd]. rewrite app_nil_r. auto.
      - intros tr0 s0 G0 (_ & I0). unfold wp, stop. cbn [fst snd]. rewrite app_nil_r. auto. }
    apply W; [exact G|]. split; [|exact I]. exists (set_conf E c). split; [eapply find_put_same; exact Fc|].
    destruct Fl as [f1 f2 f3 f4 f5 f6]. split; [split; auto|]. split; [exact Kc|reflexivity].
  - refine (H_fits _ SK mm _ tr s G Qz). subst mm. apply fits_bind; [apply fits_look|]. intros [c|].
    + apply fits_bind; [apply fits_upd; exact NE|]. intros _. apply fits_bind; [apply fits_try_pack|]. intros [|]; [|apply fits_stop].
      apply fits_bind; [apply fits_send; congruence|]. intros [|]; [apply fits_ret|apply fits_stop].
    + apply fits_emit_error; discriminate.
Qed.

(** setting the self key or the assigned key of [u] *)
Lemma H_set B (f : consumer -> consumer) (o : out) :
  (forall c, c_buf E (f c) = c_buf E c /\ c_disc E (f c) = c_disc E c /\ c_hash E (f c) = c_hash E c /\ c_conf E (f c) = c_conf E c
     /\ (has_key E c = true -> has_key E (f c) = true) /\ (c_assigned E c <> None -> c_assigned E (f c) <> None)
     /\ (o = OSetAssigned E u -> c_assigned E (f c) <> None)) ->
  alien o \/ o = OSetAssigned E u ->
  H (at_ease (holds B)) (bindp E (upd E u f) (fun _ => bindp E (emit E o) (fun _ => ret E true))) (fun _ => at_ease (holds B)).
Proof.
  intros Hf Ho tr s G ((c & Fc & Fl & Kc) & I). eapply wp_bind_upd; [exact Fc|]. apply wp_bind_emit. unfold wp, ret. cbn [fst snd s_tab].
  destruct (Hf c) as (h1 & h2 & h3 & h4 & h5 & h6 & h7).
  assert (NO : forall h m, o <> OHandle E u h m).
  { intros h m ->. destruct Ho as [Ho|Ho]; [exact (Ho eq_refl)|discriminate Ho]. }
  split.
  { apply Good_snoc; [exact G|]. split; [|intros m D; elim (I m D)].
    destruct Ho as [Ho|Ho]; [|rewrite Ho; exact Logic.I]. destruct o; cbn in Ho |- *; auto. intros W. contradiction. }
  split.
  - exists (f c). split; [eapply find_put_same; exact Fc|]. split.
    + assert (Z : forall x, In x (tr ++ [o]) -> alien x \/ In x tr \/ x = OSetAssigned E u).
      { intros x J. apply in_app_iff in J. destruct J as [J|[<-|[]]]; [auto|]. destruct Ho; auto. }
      destruct Fl as [f1 f2 f3 f4 f5 f6]. split.
      * intros n ok J. rewrite h4. destruct (Z _ J) as [K|[K|K]]; [elim (K eq_refl)|eauto|discriminate K].
      * intros n v ok J. apply h5. destruct (Z _ J) as [K|[K|K]]; [elim (K eq_refl)|eauto|discriminate K].
      * intros n ok J. rewrite h3. destruct (Z _ J) as [K|[K|K]]; [elim (K eq_refl)|eauto|discriminate K].
      * intros J. apply in_app_iff in J. destruct J as [J|[J|[]]]; auto.
      * rewrite h2, f5. split; intros (ok & J); exists ok; [apply in_app_iff; auto|].
        destruct (Z _ J) as [K|[K|K]]; [elim (K eq_refl)|exact K|discriminate K].
      * rewrite h3. auto.
    + intros W. rewrite h2 in W. rewrite h1. apply Kc. exact W.
  - intros m D. destruct (due_last _ _ _ D) as (h & Q & _). exact (NO _ _ Q).
Qed.

Lemma H_true {A} (m : P A) Pre K : H Pre m (fun _ => K) -> H Pre (bindp E m (fun _ => ret E true)) (fun _ => K).
Proof. intros Hm. eapply H_bind; [exact Hm|]. intros a. apply H_ret. Qed.

Lemma H_step B e : apart e -> H (at_ease (holds B)) (step E e) (fun _ => at_ease (holds B)).
Proof.
  intros Ap. pose proof (holds_stable B) as SK. destruct e; cbn [step apart] in *.
  - apply H_fits; [exact SK|]. apply fits_bind; [apply fits_world|]. intros ok. apply fits_bind; [apply fits_emit; exact I|].
    intros _. destruct ok; [apply fits_ret|apply fits_stop].
  - apply H_ret.
  - apply H_true, H_fits; [exact SK|]. apply fits_add_connection. exact Ap.
  - apply H_true, H_fits; [exact SK|]. apply fits_remove_connection. exact Ap.
  - apply H_true, H_fits; [exact SK|]. apply fits_received. exact Ap.
  - apply H_fits; [exact SK|]. apply fits_bind; [apply fits_opt_ident|]. intros i.
    apply fits_bind; [apply fits_emit_error; discriminate|]. intros _. apply fits_ret.
  - apply H_fits; [exact SK|]. apply fits_bind; [apply fits_opt_ident|]. intros i.
    apply fits_bind; [apply fits_emit_error; discriminate|]. intros _. apply fits_ret.
  - apply H_true, H_fits; [exact SK|]. apply fits_emit_error; discriminate.
  - apply H_fits; [exact SK|]. apply fits_bind; [apply fits_get_tab|]. intros t. apply fits_bind; [apply fits_world|]. intros bs.
    apply fits_bind; [apply fits_emit; exact I|]. intros _. apply fits_bind; [apply fits_emit_event|]. intros _. apply fits_ret.
  - destruct (N.eqb_spec u0 u) as [->|NE].
    + intros tr s G Q. apply wp_bind_look. destruct Q as ((c & Fc & Fl & Kc) & I). rewrite Fc.
      refine (H_set B (set_key E k ov) (OSetKey E u) _ _ tr s G _); [|left; exact Logic.I|].
      * intros d. repeat split; auto. discriminate.
      * split; [exists c; auto|exact I].
    + apply H_fits; [exact SK|]. apply fits_bind; [apply fits_look|]. intros [c|].
      * apply fits_bind; [apply fits_upd; exact NE|]. intros _. apply fits_bind; [apply fits_emit; exact I|]. intros _. apply fits_ret.
      * apply fits_bind; [apply fits_emit_error; discriminate|]. intros _. apply fits_ret.
  - destruct (N.eqb_spec u0 u) as [->|NE].
    + intros tr s G Q. apply wp_bind_look. destruct Q as ((c & Fc & Fl & Kc) & I). rewrite Fc.
      refine (H_set B (set_assigned E k ov) (OSetAssigned E u) _ _ tr s G _); [|right; reflexivity|].
      * intros d. repeat split; auto; intros; discriminate.
      * split; [exists c; auto|exact I].
    + apply H_fits; [exact SK|]. apply fits_bind; [apply fits_look|]. intros [c|].
      * apply fits_bind; [apply fits_upd; exact NE|]. intros _. apply fits_bind; [apply fits_emit; exact NE|]. intros _. apply fits_ret.
      * apply fits_bind; [apply fits_emit_error; discriminate|]. intros _. apply fits_ret.
  - apply H_true, H_confirm.
  - apply H_ret.
Qed.

Lemma H_step_received d hs B c0 ms :
  H (fun tr s => find E u (s_tab E s) = Some c0 /\ flags tr c0 /\ idle tr /\ c_conf E c0 = true /\ (hs = true -> c_hash E c0 = true) /\
       (c_disc E c0 = false -> chunk (e_get E) (e_sig E) (c_buf E c0) d = (COk, mkBuf B ms) /\
          Forall (fun x => fine (has_key E c0) hs (snd x)) ms))
    (step E (VReceived u d)) (fun _ => at_ease (holds B)).
Proof. cbn [step]. eapply H_bind; [apply H_received|]. intros a. apply H_ret. Qed.
End Server.
