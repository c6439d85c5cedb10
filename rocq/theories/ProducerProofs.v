(** Reasoning about the producer model: a Hoare logic over the trace, the
    connection invariant and the table. *)
From Coq Require Import List NArith Bool Lia.
From Verif Require Import Bytes WireModel FrameModel ProducerModel.
Import ListNotations.
Open Scope N_scope.

Lemma bytes_eqb_eq a b : bytes_eqb a b = true <-> a = b.
Proof.
  revert b. induction a as [|x a IH]; intros [|y b]; cbn [bytes_eqb]; try (split; congruence).
  rewrite andb_true_iff, IH. split.
  - intros [H1 H2]. apply Byte.byte_dec_bl in H1. congruence.
  - intros [= -> ->]. split; auto. apply Byte.byte_dec_lb. reflexivity.
Qed.

Section Proofs.
Variable E : env.

Notation out := (out E).
Notation st := (st E).
Notation P := (P E).

(** ** The table *)
Lemma find_put_same u c t d : find E u t = Some d -> find E u (put E u c t) = Some c.
Proof.
  induction t as [|[v x] t IH]; cbn [find put]; [discriminate|].
  destruct (N.eqb_spec u v); cbn [find].
  - subst. rewrite N.eqb_refl. auto.
  - intros H. destruct (N.eqb_spec u v); [lia|]. auto.
Qed.

Lemma find_put_other u v c t : u <> v -> find E v (put E u c t) = find E v t.
Proof.
  intros H. induction t as [|[w x] t IH]; cbn [find put]; auto.
  destruct (N.eqb_spec u w); cbn [find].
  - subst. destruct (N.eqb_spec v w); [congruence|]. reflexivity.
  - destruct (N.eqb_spec v w); auto.
Qed.

Lemma map_fst_put u c t : map fst (put E u c t) = map fst t.
Proof.
  induction t as [|[w x] t IH]; cbn [put]; auto.
  destruct (N.eqb_spec u w); cbn [map fst]; congruence.
Qed.

Lemma find_In u t : find E u t <> None <-> In u (map fst t).
Proof.
  induction t as [|[w x] t IH]; cbn [find map fst In]; [tauto|].
  destruct (N.eqb_spec u w).
  - subst. split; [auto|discriminate].
  - rewrite IH. intuition congruence.
Qed.

Lemma find_In_pair u c t : find E u t = Some c -> In (u, c) t.
Proof.
  induction t as [|[w x] t IH]; cbn [find]; [discriminate|].
  destruct (N.eqb_spec u w); intros H; [left; congruence|right; auto].
Qed.

Lemma In_find u c t : NoDup (map fst t) -> In (u, c) t -> find E u t = Some c.
Proof.
  induction t as [|[w x] t IH]; cbn [find map fst In]; [tauto|].
  intros Nd [H|H].
  - injection H as -> ->. rewrite N.eqb_refl. auto.
  - inversion Nd; subst. destruct (N.eqb_spec u w); auto.
    subst. exfalso. apply (in_map fst) in H. auto.
Qed.

Lemma drop_In u t v : In v (map fst (drop E u t)) -> In v (map fst t).
Proof.
  induction t as [|[w x] t IH]; cbn [drop]; auto.
  destruct (N.eqb_spec u w); cbn [map fst In]; tauto.
Qed.

Lemma NoDup_drop u t : NoDup (map fst t) -> NoDup (map fst (drop E u t)).
Proof.
  induction t as [|[w x] t IH]; cbn [drop map fst]; auto.
  intros Nd; inversion Nd; subst.
  destruct (N.eqb_spec u w); auto. cbn [map fst]. constructor; auto.
  intros H. apply drop_In in H. auto.
Qed.

Lemma find_drop_same u t : NoDup (map fst t) -> find E u (drop E u t) = None.
Proof.
  induction t as [|[w x] t IH]; cbn [drop map fst]; auto.
  intros Nd; inversion Nd as [|? ? Hn Nd']; subst.
  destruct (N.eqb_spec u w).
  - subst. destruct (find E w t) eqn:F; auto.
    exfalso. apply Hn, find_In. congruence.
  - cbn [find]. destruct (N.eqb_spec u w); [lia|auto].
Qed.

Lemma find_drop_other u v t : u <> v -> find E v (drop E u t) = find E v t.
Proof.
  intros H. induction t as [|[w x] t IH]; cbn [drop]; auto.
  destruct (N.eqb_spec u w); cbn [find].
  - subst. destruct (N.eqb_spec v w); [congruence|]. reflexivity.
  - destruct (N.eqb_spec v w); auto.
Qed.

(** ** Weakest preconditions *)
Definition wp {A} (m : P A) (s : st) (Q : list out -> st -> pres A -> Prop) : Prop :=
  Q (fst (m s)) (fst (snd (m s))) (snd (snd (m s))).

Lemma wp_intro {A} (m : P A) s (Q : list out -> st -> pres A -> Prop) :
  (forall t s' r, m s = (t, (s', r)) -> Q t s' r) -> wp m s Q.
Proof. intros H. unfold wp. destruct (m s) as [t [s' r]] eqn:Em. apply H. auto. Qed.

Lemma wp_elim {A} (m : P A) s Q t s' r : wp m s Q -> m s = (t, (s', r)) -> Q t s' r.
Proof. unfold wp. intros H Em. rewrite Em in H. exact H. Qed.

Lemma wp_mono {A} (m : P A) s (Q R : list out -> st -> pres A -> Prop) :
  wp m s Q -> (forall t s' r, Q t s' r -> R t s' r) -> wp m s R.
Proof. unfold wp. auto. Qed.

Lemma wp_and {A} (m : P A) s (Q R : list out -> st -> pres A -> Prop) :
  wp m s Q -> wp m s R -> wp m s (fun t s' r => Q t s' r /\ R t s' r).
Proof. unfold wp. auto. Qed.

Lemma wp_bind {A B} (m : P A) (f : A -> P B) s Q :
  wp m s (fun t s1 r => match r with
    | PGo a => wp (f a) s1 (fun t2 s2 r2 => Q (t ++ t2) s2 r2)
    | PStop e => Q t s1 (PStop e)
    | PPanic => Q t s1 PPanic
    end) -> wp (bindp E m f) s Q.
Proof.
  unfold wp, bindp. destruct (m s) as [t [s1 r]]. cbn [fst snd].
  destruct r as [a|e|]; cbn [fst snd]; auto.
  destruct (f a s1) as [t2 [s2 r2]]. auto.
Qed.

(** ** Pieces of code that only talk to the world *)
Definition is_answer {X} (p : payload X) : bool :=
  match p with PSelf _ | PHash _ | PBeacon | PAnswer _ => true | _ => false end.

Definition quiet (o : out) : bool :=
  match o with
  | OSend _ _ _ p _ => negb (is_answer p)
  | OUnpacked _ _ _ _ | OError _ _ _ | ODeferred _ | OReady _ => true
  | _ => false
  end.

Definition calm {A} (m : P A) : Prop :=
  forall s, wp m s (fun t s' r => forallb quiet t = true /\ s_tab E s' = s_tab E s /\ s_conf E s' = s_conf E s).

Lemma calm_bind {A B} (m : P A) (f : A -> P B) :
  calm m -> (forall a, calm (f a)) -> calm (bindp E m f).
Proof.
  intros Hm Hf s. apply wp_bind. eapply wp_mono; [apply Hm|].
  intros t s1 [a|e|] (Ht & H1 & H2); auto.
  eapply wp_mono; [apply Hf|]. intros t2 s2 r2 (Ht2 & H3 & H4).
  rewrite forallb_app, Ht, Ht2. split; auto. split; congruence.
Qed.

Lemma calm_ret {A} (a : A) : calm (ret E a).
Proof. intros s. repeat split. Qed.
Lemma calm_stop {A} e : calm (@stop E A e).
Proof. intros s. repeat split. Qed.
Lemma calm_emit o : quiet o = true -> calm (emit E o).
Proof. intros H s. unfold wp, emit. cbn. rewrite H. auto. Qed.
Lemma calm_world {A} (f : _ -> _ * A) : calm (world E f).
Proof. intros s. unfold wp, world. destruct (f (s_w E s)). repeat split. Qed.
Lemma calm_get_tab : calm (get_tab E).
Proof. intros s. repeat split. Qed.
Lemma calm_look u : calm (look E u).
Proof. intros s. repeat split. Qed.

Lemma calm_ident_at u : calm (ident_at E u).
Proof. apply calm_bind; [apply calm_look|]. intros c. apply calm_ret. Qed.

Lemma calm_try_pack u seq p : calm (try_pack E u seq p).
Proof.
  apply calm_bind; [apply calm_world|]. intros [].
  - apply calm_ret.
  - apply calm_bind; [apply calm_emit; auto|]. intros. apply calm_ret.
Qed.

Lemma calm_send u seq p : is_answer p = false -> calm (send E u seq p).
Proof.
  intros H. apply calm_bind; [apply calm_world|]. intros ok.
  apply calm_bind; [apply calm_emit; cbn; rewrite H; auto|]. intros. apply calm_ret.
Qed.

Lemma calm_broadcast us x : calm (broadcast E us x).
Proof.
  induction us; cbn [broadcast]; [apply calm_ret|].
  apply calm_bind; [apply calm_send; auto|]. auto.
Qed.

Lemma calm_broadcast_all l : calm (broadcast_all E l).
Proof.
  induction l as [|[us x] l IH]; cbn [broadcast_all]; [apply calm_ret|].
  apply calm_bind; [apply calm_broadcast|]. auto.
Qed.

Lemma calm_pack_all u l : calm (pack_all E u l).
Proof.
  induction l as [|[us x] l IH]; cbn [pack_all]; [apply calm_ret|].
  apply calm_bind; [apply calm_try_pack|]. intros []; [auto|apply calm_ret].
Qed.

Lemma calm_deferred : calm (deferred E).
Proof. apply calm_bind; [apply calm_world|]. intros. apply calm_emit; auto. Qed.

Lemma calm_emit_error e u i : calm (emit_error E e u i).
Proof.
  apply calm_bind; [apply calm_world|]. intros ok.
  apply calm_bind; [apply calm_emit; auto|]. intros. destruct ok; [apply calm_ret|apply calm_stop].
Qed.

Lemma calm_emit_event ds bs : calm (emit_event E ds bs).
Proof.
  destruct bs as [bs|]; cbn [emit_event]; [|apply calm_ret].
  apply calm_bind; [apply calm_pack_all|]. intros []; [|apply calm_ret].
  apply calm_bind; [apply calm_broadcast_all|]. intros.
  apply calm_bind; [apply calm_deferred|]. intros. apply calm_ret.
Qed.

Lemma calm_opt_ident u : calm (opt_ident E u).
Proof. destruct u; cbn [opt_ident]; [apply calm_ident_at|apply calm_ret]. Qed.

(** ** The part of the trace that belongs to the current connection *)
Definition push (u : uuid) (acc : option (list out)) (o : out) : option (list out) :=
  let app := match acc with Some l => Some (l ++ [o]) | None => None end in
  match o with
  | OConnected _ v _ _ => if v =? u then Some [] else app
  | ODisconnected _ v _ _ => if v =? u then None else app
  | _ => app
  end.

Definition since (u : uuid) (tr : list out) : option (list out) :=
  fold_left (push u) tr None.

Lemma since_snoc u tr o : since u (tr ++ [o]) = push u (since u tr) o.
Proof. unfold since. rewrite fold_left_app. reflexivity. Qed.

Lemma fold_quiet u t : forall acc, forallb quiet t = true ->
  fold_left (push u) t acc = match acc with Some l => Some (l ++ t) | None => None end.
Proof.
  induction t as [|o t IH]; intros acc H; cbn [fold_left].
  - destruct acc; [rewrite app_nil_r|]; auto.
  - cbn [forallb] in H. apply andb_true_iff in H. destruct H as [Ho Ht].
    rewrite (IH _ Ht). destruct o; cbn in Ho; try discriminate; destruct acc; cbn [push];
      rewrite <- ?app_assoc; auto.
Qed.

Lemma since_quiet u tr t : forallb quiet t = true ->
  since u (tr ++ t) = match since u tr with Some l => Some (l ++ t) | None => None end.
Proof. intros H. unfold since. rewrite fold_left_app. apply fold_quiet. auto. Qed.

(** [since] in terms of the trace *)
Definition mentions (u : uuid) (o : out) : Prop :=
  match o with OConnected _ v _ _ | ODisconnected _ v _ _ => v = u | _ => False end.

Lemma fold_push_split u t : forall acc l,
  fold_left (push u) t acc = Some l ->
  (exists pre ids bs, t = pre ++ OConnected E u ids bs :: l /\ (forall o, In o l -> ~ mentions u o)) \/
  (exists l0, acc = Some l0 /\ l = l0 ++ t /\ (forall o, In o t -> ~ mentions u o)).
Proof.
  induction t as [|o t IH]; intros acc l H; cbn [fold_left] in H.
  - right. exists l. rewrite app_nil_r. split; [exact H|]. split; [reflexivity|]. intros o [].
  - destruct (IH _ _ H) as [(pre & ids & bs & -> & Hn)|(l0 & Ha & -> & Hn)].
    + left. exists (o :: pre), ids, bs. auto.
    + assert (Hcase : ((exists ids bs, o = OConnected E u ids bs) /\ l0 = []) \/
                      (~ mentions u o /\ exists l1, acc = Some l1 /\ l0 = l1 ++ [o])).
      { unfold mentions. destruct o; cbn [push] in Ha;
          try (right; split; [tauto|]; destruct acc; [|discriminate];
               injection Ha as <-; eauto; fail).
        - destruct (N.eqb_spec u0 u).
          + left. injection Ha as <-. subst. eauto.
          + right. split; [auto|]. destruct acc; [|discriminate]. injection Ha as <-. eauto.
        - destruct (N.eqb_spec u0 u); [discriminate|].
          right. split; [auto|]. destruct acc; [|discriminate]. injection Ha as <-. eauto. }
      destruct Hcase as [[(ids & bs & ->) ->]|(Hm & l1 & -> & ->)].
      * left. exists [], ids, bs. cbn [app]. split; auto.
      * right. exists l1. split; auto. rewrite <- app_assoc. split; auto.
        intros x [<-|Hx]; auto.
Qed.

Lemma since_split u tr l : since u tr = Some l ->
  exists pre ids bs, tr = pre ++ OConnected E u ids bs :: l /\ (forall o, In o l -> ~ mentions u o).
Proof.
  intros H. destruct (fold_push_split _ _ _ _ H) as [?|(l0 & ? & _)]; [auto|discriminate].
Qed.

(** ** A Hoare logic over the whole trace *)
Section Hoare.
Variable ok_at : list out -> out -> Prop.

Definition Good (tr : list out) : Prop :=
  forall pre o post, tr = pre ++ o :: post -> ok_at pre o.

Lemma Good_nil : Good [].
Proof. intros pre o post H. destruct pre; discriminate. Qed.

Lemma Good_snoc tr o : Good tr -> ok_at tr o -> Good (tr ++ [o]).
Proof.
  intros Hg Ho pre x post H.
  destruct (rev post) as [|y r] eqn:Er.
  - apply (f_equal (@rev _)) in Er. rewrite rev_involutive in Er. cbn in Er. subst post.
    apply app_inj_tail in H. destruct H as [-> ->]. auto.
  - apply (f_equal (@rev _)) in Er. rewrite rev_involutive in Er. cbn [rev] in Er. subst post.
    rewrite app_comm_cons, app_assoc in H. apply app_inj_tail in H. destruct H as [H _].
    eapply Hg. exact H.
Qed.

Lemma Good_app_quiet tr t : (forall pre o, quiet o = true -> ok_at pre o) ->
  Good tr -> forallb quiet t = true -> Good (tr ++ t).
Proof.
  intros Hq. revert tr. induction t as [|o t IH]; intros tr Hg Ht.
  - rewrite app_nil_r. auto.
  - cbn [forallb] in Ht. apply andb_true_iff in Ht. destruct Ht as [Ho Ht].
    replace (tr ++ o :: t) with ((tr ++ [o]) ++ t) by (rewrite <- app_assoc; auto).
    apply IH; auto. apply Good_snoc; auto.
Qed.

Definition T {A} (Pre : list out -> st -> Prop) (m : P A) (Post : A -> list out -> st -> Prop) : Prop :=
  forall tr s, Good tr -> Pre tr s ->
    wp m s (fun t s' r => Good (tr ++ t) /\
      match r with PGo a => Post a (tr ++ t) s' | _ => True end).

Lemma T_bind {A B} Pre (m : P A) (Mid : A -> list out -> st -> Prop) (f : A -> P B) (Post : B -> list out -> st -> Prop) :
  T Pre m Mid -> (forall a, T (Mid a) (f a) Post) -> T Pre (bindp E m f) Post.
Proof.
  intros Hm Hf tr s Hg Hp. apply wp_bind. eapply wp_mono; [apply (Hm tr s Hg Hp)|].
  intros t s1 r [G1 Q1]. destruct r as [a|e|]; auto.
  eapply wp_mono; [apply Hf; [exact G1|exact Q1]|].
  intros t2 s2 r2 HQ. cbv beta in HQ. rewrite <- app_assoc in HQ. exact HQ.
Qed.

Lemma T_conseq {A} (Pre Pre' : list out -> st -> Prop) (m : P A) (Post Post' : A -> list out -> st -> Prop) :
  T Pre m Post -> (forall tr s, Pre' tr s -> Pre tr s) ->
  (forall a tr s, Post a tr s -> Post' a tr s) -> T Pre' m Post'.
Proof.
  intros H H1 H2 tr s Hg Hp. eapply wp_mono; [apply (H tr s Hg (H1 _ _ Hp))|].
  intros t s' r [G Q]. destruct r as [a|e|]; auto.
Qed.

Lemma T_ret {A} Pre (a : A) : T Pre (ret E a) (fun b tr s => b = a /\ Pre tr s).
Proof. intros tr s Hg Hp. unfold wp, ret. cbn [fst snd]. rewrite app_nil_r. auto. Qed.

Lemma T_stop {A} Pre e (Post : A -> list out -> st -> Prop) : T Pre (@stop E A e) Post.
Proof. intros tr s Hg Hp. unfold wp, stop. cbn. rewrite app_nil_r. auto. Qed.

Lemma T_panic {A} Pre (Post : A -> list out -> st -> Prop) : T Pre (@panic E A) Post.
Proof. intros tr s Hg Hp. unfold wp, panic. cbn. rewrite app_nil_r. auto. Qed.

Lemma T_emit (Pre : list out -> st -> Prop) o :
  (forall tr s, Good tr -> Pre tr s -> ok_at tr o) ->
  T Pre (emit E o) (fun _ tr s => exists tr0, tr = tr0 ++ [o] /\ Pre tr0 s).
Proof.
  intros H tr s Hg Hp. unfold wp, emit. cbn [fst snd]. split.
  - apply Good_snoc; eauto.
  - eauto.
Qed.

Lemma T_look (Pre : list out -> st -> Prop) u :
  T Pre (look E u) (fun c tr s => Pre tr s /\ c = find E u (s_tab E s)).
Proof. intros tr s Hg Hp. unfold wp, look. cbn [fst snd]. rewrite app_nil_r. auto. Qed.

(** assertions that do not depend on the world and survive quiet outputs *)
Definition stable (Pre : list out -> st -> Prop) : Prop :=
  forall tr s t s', Pre tr s -> forallb quiet t = true ->
    s_tab E s' = s_tab E s -> s_conf E s' = s_conf E s -> Pre (tr ++ t) s'.

Lemma T_calm {A} Pre (m : P A) : (forall pre o, quiet o = true -> ok_at pre o) ->
  stable Pre -> calm m -> T Pre m (fun _ => Pre).
Proof.
  intros Hq Hs Hm tr s Hg Hp. eapply wp_mono; [apply Hm|].
  intros t s' r (Ht & H1 & H2). split; [apply Good_app_quiet; auto|].
  destruct r; auto. eapply Hs; eauto.
Qed.

Lemma T_case {A} (b : bool) Pre (m1 m2 : P A) Post :
  (b = true -> T Pre m1 Post) -> (b = false -> T Pre m2 Post) ->
  T Pre (if b then m1 else m2) Post.
Proof. destruct b; auto. Qed.

End Hoare.
End Proofs.
