(** Proofs about TsClientModel.v: one invariant of all executions of a generated
    TypeScript consumer ([inv]), which ties what is known of every promise to the
    events about it. *)
From Coq Require Import List NArith Arith Bool Lia.
From Verif Require Import Bytes WireModel FrameModel TsModel TsClientModel.
Import ListNotations.
Open Scope N_scope.

Section Proofs.
Variable E : tenv.
Local Notation M := (t_msg E).
Local Notation tev := (tev M).
Local Notation tst := (tst M).

(** ** Reading traces *)

(** the events about promise [a] *)
Definition about (a : nat) (e : tev) : bool :=
  match e with
  | VCall b _ | VNum b _ _ | VRet b _ | VMatch b _ _ => Nat.eqb b a
  | _ => false
  end.
Definition life (a : nat) (tr : list tev) : list tev := filter (about a) tr.

(** the numbers taken, in order *)
Definition nums (tr : list tev) : list N :=
  flat_map (fun e => match e with VNum _ n _ => [n] | _ => [] end) tr.

(** the object of a call *)
Definition on (w : what) : option nat :=
  match w with WReq _ o | WBeacon _ o => Some o | _ => None end.

(** [r] is a way in which a call [w] may end on response [m] *)
Definition fits (w : what) (m : M) (r : tret M) : Prop :=
  match w with
  | WAssign _ =>
    match t_self E m with
    | None => r = RetErr EUnexpected
    | Some u => r = RetUuid u \/ r = RetErr EUuid
    end
  | WHash _ =>
    match t_hash E m with
    | None => r = RetErr EUnexpected
    | Some (Some t) => r = RetErr (EText t)
    | Some None => r = RetHash
    end
  | WReq q _ =>
    r = RetErr EGone \/
    match t_answer E q m with
    | None => r = RetErr EUnexpected
    | Some i => r = RetAnswer i m
    end
  | WBeacon _ _ =>
    r = RetErr EGone \/
    match t_beacon E m with
    | None => r = RetErr EUnexpected
    | Some (Some t) => r = RetErr (EText t)
    | Some None => r = RetBeacon
    end
  end.

(** ** The invariant *)

(** What has happened to promise [a]. *)
Definition shape (st : option (what * stage M)) (a : nat) (l : list tev) : Prop :=
  match st with
  | None => l = []
  | Some (w, TWait n) => l = [VCall a w; VNum a n SOk]
  | Some (w, TGot n m) => l = [VCall a w; VNum a n SOk; VMatch a n m]
  | Some (w, THash u) =>
    exists n m, w = WAssign true /\ t_self E m = Some u /\
      l = [VCall a w; VNum a n SOk; VMatch a n m; VRet a (RetUuid u)]
  | Some (w, TDone) =>
    (exists o e, on w = Some o /\ (e = EBusy \/ e = EGone) /\
       l = [VCall a w; VRet a (RetErr e)]) \/
    (exists n r e, r <> SOk /\ (e = EPack \/ e = ESend) /\
       l = [VCall a w; VNum a n r; VRet a (RetErr e)]) \/
    (exists n m r, fits w m r /\
       l = [VCall a w; VNum a n SOk; VMatch a n m; VRet a r])
  end.

(** promise [a] waits, and its outcome will be told to object [o] *)
Definition busy (st : option (what * stage M)) (o : nat) : Prop :=
  match st with
  | Some (w, TWait _) | Some (w, TGot _ _) => on w = Some o
  | _ => False
  end.

(** the sending of call [a] with object [o] failed *)
Definition failed (a o : nat) (l : list tev) : Prop :=
  exists w n r e, on w = Some o /\ r <> SOk /\
    l = [VCall a w; VNum a n r; VRet a (RetErr e)].

Record inv (s : tst) (tr : list tev) : Prop := {
  i_nums : nums tr = map N.of_nat (seq 1 (length (nums tr)));
  i_seq : c_seq s = 1 + N.of_nat (length (nums tr));
  i_shape : forall a, shape (c_act s a) a (life a tr);
  i_pend : forall n a, c_pend s n = Some a ->
    1 <= n < c_seq s /\ exists w, c_act s a = Some (w, TWait n);
  i_wait : forall a w n, c_act s a = Some (w, TWait n) -> c_pend s n = Some a;
  i_one : forall a b o, busy (c_act s a) o -> busy (c_act s b) o -> a = b;
  i_ready : forall a o, c_obj s o = OReady -> ~ busy (c_act s a) o;
  i_pending : forall o, c_obj s o = OPending ->
    exists a, busy (c_act s a) o \/ failed a o (life a tr)
}.

Lemma life_app a x y : life a (x ++ y) = life a x ++ life a y.
Proof. apply filter_app. Qed.

Lemma nums_app x y : nums (x ++ y) = nums x ++ nums y.
Proof. apply flat_map_app. Qed.

Lemma upd_same {A} (f : nat -> A) a x : upd f a x a = x.
Proof. unfold upd. rewrite Nat.eqb_refl. reflexivity. Qed.
Lemma upd_other {A} (f : nat -> A) a x k : k <> a -> upd f a x k = f k.
Proof. intro H. unfold upd. apply Nat.eqb_neq in H. rewrite H. reflexivity. Qed.
Lemma updN_same {A} (f : N -> A) a x : updN f a x a = x.
Proof. unfold updN. rewrite N.eqb_refl. reflexivity. Qed.
Lemma updN_other {A} (f : N -> A) a x k : k <> a -> updN f a x k = f k.
Proof. intro H. unfold updN. apply N.eqb_neq in H. rewrite H. reflexivity. Qed.

Lemma inv_init : inv (tinit) [].
Proof.
  constructor; try reflexivity; cbn.
  - intros; discriminate.
  - intros; discriminate.
  - intros a b o [].
  - intros a o _ [].
  - intros; discriminate.
Qed.

Lemma failed_app a o x y : failed a o x -> y = [] -> failed a o (x ++ y).
Proof. intros H ->. rewrite app_nil_r. exact H. Qed.

(** Steps that touch no promise, number or object. *)
Lemma inv_inert (s s' : tst) tr es : inv s tr ->
  c_seq s' = c_seq s -> c_pend s' = c_pend s -> c_act s' = c_act s ->
  c_obj s' = c_obj s -> (forall a, life a es = []) -> nums es = [] ->
  inv s' (tr ++ es).
Proof.
  intros I Hs Hp Ha Ho Hl Hn.
  constructor; rewrite ?nums_app, ?Hn, ?app_nil_r, ?Hs, ?Hp, ?Ha, ?Ho; try apply I.
  - intro a. rewrite life_app, Hl, app_nil_r. apply I.
  - intros o H. destruct (i_pending _ _ I o H) as (a & [B|F]); exists a; [left; auto|right].
    rewrite life_app, Hl, app_nil_r. exact F.
Qed.

(** A promise gets a new stage; nothing else changes except the trace. *)
Lemma act_cases (s : tst) a x k :
  upd (c_act s) a x k = (if Nat.eqb k a then x else c_act s k).
Proof. reflexivity. Qed.

Lemma inv_destroy (s : tst) tr o : inv s tr -> inv (set_obj s o ODestroyed) (tr ++ []).
Proof.
  intro I. rewrite app_nil_r. constructor; try apply I; cbn [set_obj c_obj c_act].
  - intros a k H. destruct (Nat.eq_dec k o) as [->|N].
    + rewrite upd_same in H. discriminate H.
    + rewrite upd_other in H by exact N. apply (i_ready _ _ I a k H).
  - intros k H. destruct (Nat.eq_dec k o) as [->|N].
    + rewrite upd_same in H. discriminate H.
    + rewrite upd_other in H by exact N. apply (i_pending _ _ I k H).
Qed.

(** a promise that is settled at once without taking a number *)
Lemma inv_refused (s : tst) tr a w o e : inv s tr ->
  c_act s a = None -> on w = Some o -> e = EBusy \/ e = EGone ->
  inv (set_act s a w (TDone)) (tr ++ [VCall a w; VRet a (RetErr e)]).
Proof.
  intros I Ha Ho He.
  assert (L : life a tr = []) by (pose proof (i_shape _ _ I a) as H; rewrite Ha in H; exact H).
  constructor; rewrite ?nums_app; cbn [nums flat_map app]; rewrite ?app_nil_r;
    cbn [set_act c_seq c_pend c_act c_obj]; try apply I.
  - intro b. rewrite life_app. unfold life at 2. cbn [filter about].
    destruct (Nat.eq_dec b a) as [->|N].
    + rewrite upd_same, Nat.eqb_refl, L. cbn [app]. left. exists o, e. auto.
    + rewrite upd_other by exact N. apply not_eq_sym, Nat.eqb_neq in N. rewrite N, app_nil_r. apply I.
  - intros n b H. destruct (i_pend _ _ I n b H) as (B & w' & H'). split; [exact B|].
    exists w'. rewrite upd_other by congruence. exact H'.
  - intros b w' n H. destruct (Nat.eq_dec b a) as [->|N].
    + rewrite upd_same in H. discriminate H.
    + rewrite upd_other in H by exact N. eapply i_wait; eauto.
  - intros b c k Hb Hc. destruct (Nat.eq_dec b a) as [->|N]; [rewrite upd_same in Hb; destruct Hb|].
    destruct (Nat.eq_dec c a) as [->|N']; [rewrite upd_same in Hc; destruct Hc|].
    rewrite upd_other in Hb, Hc by assumption. eapply i_one; eauto.
  - intros b k H Hb. destruct (Nat.eq_dec b a) as [->|N]; [rewrite upd_same in Hb; destruct Hb|].
    rewrite upd_other in Hb by assumption. eapply i_ready; eauto.
  - intros k H. destruct (i_pending _ _ I k H) as (b & HB). exists b.
    destruct (Nat.eq_dec b a) as [->|N].
    + exfalso. rewrite Ha, L in HB. destruct HB as [[]|(w' & n & r & e' & _ & _ & C)]; discriminate C.
    + rewrite upd_other, life_app by exact N. unfold life at 2. cbn [filter about].
      apply not_eq_sym, Nat.eqb_neq in N. rewrite N, app_nil_r. exact HB.
Qed.

(** [begin], possibly after the object of the call has become pending *)
Definition claim_obj (s : tst) (w : what) : tst :=
  match on w with Some o => set_obj s o OPending | None => s end.

Lemma inv_begin (s s' : tst) tr a w r es : inv s tr ->
  (forall o, on w = Some o -> c_obj s o = OReady) ->
  begin E (claim_obj s w) a w r = Some (s', es) -> inv s' (tr ++ es).
Proof.
  intros I Hw B.
  set (s0 := claim_obj s w) in *.
  assert (Q : c_seq s0 = c_seq s /\ c_pend s0 = c_pend s /\ c_act s0 = c_act s).
  { unfold s0, claim_obj. destruct (on w); auto. }
  destruct Q as (Qs & Qp & Qa).
  assert (Qo : forall k, c_obj s0 k = c_obj s k \/ (on w = Some k /\ c_obj s0 k = OPending)).
  { intro k. unfold s0, claim_obj. destruct (on w) as [o|]; [|auto]. cbn [set_obj c_obj].
    destruct (Nat.eq_dec k o) as [->|N]; [rewrite upd_same; auto|rewrite upd_other; auto]. }
  unfold begin in B. rewrite Qs, Qp, Qa in B.
  destruct (c_act s a) as [x|] eqn:Ha; [discriminate B|].
  assert (L : life a tr = []) by (pose proof (i_shape _ _ I a) as H; rewrite Ha in H; exact H).
  assert (P0 : c_pend s (c_seq s) = None).
  { destruct (c_pend s (c_seq s)) as [b|] eqn:C; [|reflexivity].
    destruct (i_pend _ _ I _ _ C) as (H & _). lia. }
  rewrite P0 in B.
  assert (NU : forall es', nums es' = [c_seq s] ->
     nums (tr ++ es') = map N.of_nat (seq 1 (length (nums (tr ++ es')))) /\
     c_seq s + 1 = 1 + N.of_nat (length (nums (tr ++ es')))).
  { intros es' H. rewrite nums_app, H, app_length. cbn [length].
    rewrite Nat.add_1_r, seq_S, map_app. cbn [map]. rewrite <- (i_nums _ _ I).
    pose proof (i_seq _ _ I). split; [|lia]. f_equal. f_equal. lia. }
  assert (LIFE : forall b es', b <> a -> (forall e, In e es' -> about b e = false) ->
     life b (tr ++ es') = life b tr).
  { intros b es' _ H. rewrite life_app. unfold life at 2.
    replace (filter (about b) es') with (@nil tev); [apply app_nil_r|].
    symmetry. clear -H. induction es' as [|e es IH]; [reflexivity|]. cbn [filter].
    rewrite (H e (or_introl eq_refl)). apply IH. intros x Hx. apply H. right. exact Hx. }
  (* the failing outcomes *)
  assert (LOST : forall e, r <> SOk -> (e = EPack \/ e = ESend) ->
     inv (set_act (mkTst (c_seq s + 1) (c_pend s) (c_uuid s0) (c_buf s0)
            (c_drain s0) (c_obj s0) (c_act s)) a w (TDone))
         (tr ++ [VCall a w; VNum a (c_seq s) r; VRet a (RetErr e)])).
  { intros e Hr He.
    assert (LA : life a (tr ++ [VCall a w; VNum a (c_seq s) r; VRet a (RetErr e)])
                 = [VCall a w; VNum a (c_seq s) r; VRet a (RetErr e)]).
    { rewrite life_app, L. unfold life. cbn [filter about]. rewrite !Nat.eqb_refl. reflexivity. }
    assert (LB : forall b, b <> a ->
       life b (tr ++ [VCall a w; VNum a (c_seq s) r; VRet a (RetErr e)]) = life b tr).
    { intros b N. apply LIFE; [exact N|]. apply not_eq_sym, Nat.eqb_neq in N.
      intros x [<-|[<-|[<-|[]]]]; exact N. }
    destruct (NU [VCall a w; VNum a (c_seq s) r; VRet a (RetErr e)] eq_refl) as (N1 & N2).
    constructor; cbn [set_act c_seq c_pend c_act c_obj]; auto.
    - intro b. destruct (Nat.eq_dec b a) as [->|N].
      + rewrite upd_same, LA. right. left. exists (c_seq s), r, e. auto.
      + rewrite upd_other, LB by exact N. apply I.
    - intros n b H. destruct (i_pend _ _ I n b H) as (Hn & w' & H'). split; [lia|].
      exists w'. rewrite upd_other by congruence. exact H'.
    - intros b w' n H. destruct (Nat.eq_dec b a) as [->|N].
      + rewrite upd_same in H. discriminate H.
      + rewrite upd_other in H by exact N. eapply i_wait; eauto.
    - intros b c k Hb Hc. destruct (Nat.eq_dec b a) as [->|N]; [rewrite upd_same in Hb; destruct Hb|].
      destruct (Nat.eq_dec c a) as [->|N']; [rewrite upd_same in Hc; destruct Hc|].
      rewrite upd_other in Hb, Hc by assumption. eapply i_one; eauto.
    - intros b k H Hb. destruct (Nat.eq_dec b a) as [->|N]; [rewrite upd_same in Hb; destruct Hb|].
      rewrite upd_other in Hb by assumption.
      destruct (Qo k) as [Q|[_ Q]]; [|congruence]. rewrite Q in H. eapply i_ready; eauto.
    - intros k H. destruct (Qo k) as [Q|[Q1 Q]].
      + rewrite Q in H. destruct (i_pending _ _ I k H) as (b & HB). exists b.
        destruct (Nat.eq_dec b a) as [->|N].
        * exfalso. rewrite Ha, L in HB. destruct HB as [[]|(w' & n & r' & e' & _ & _ & C)]; discriminate C.
        * rewrite upd_other, LB by exact N. exact HB.
      + exists a. right. rewrite LA. exists w, (c_seq s), r, e. auto. }
  destruct r.
  - injection B as <- <-. apply LOST; [discriminate|auto].
  - destruct (2 ^ 32 <=? c_seq s); [discriminate B|].
    injection B as <- <-. apply LOST; [discriminate|auto].
  - destruct (2 ^ 32 <=? c_seq s); [discriminate B|].
    injection B as <- <-.
    assert (LA : life a (tr ++ [VCall a w; VNum a (c_seq s) SOk])
                 = [VCall a w; VNum a (c_seq s) SOk]).
    { rewrite life_app, L. unfold life. cbn [filter about]. rewrite !Nat.eqb_refl. reflexivity. }
    assert (LB : forall b, b <> a ->
       life b (tr ++ [VCall a w; VNum a (c_seq s) SOk]) = life b tr).
    { intros b N. apply LIFE; [exact N|]. apply not_eq_sym, Nat.eqb_neq in N.
      intros x [<-|[<-|[]]]; exact N. }
    destruct (NU [VCall a w; VNum a (c_seq s) SOk] eq_refl) as (N1 & N2).
    constructor; cbn [set_act set_pend c_seq c_pend c_act c_obj]; auto.
    + intro b. destruct (Nat.eq_dec b a) as [->|N].
      * rewrite upd_same, LA. reflexivity.
      * rewrite upd_other, LB by exact N. apply I.
    + intros n b H. destruct (N.eq_dec n (c_seq s)) as [->|Nn].
      * rewrite updN_same in H. injection H as <-. pose proof (i_seq _ _ I). split; [lia|].
        exists w. apply upd_same.
      * rewrite updN_other in H by exact Nn.
        destruct (i_pend _ _ I n b H) as (Hn & w' & H'). split; [lia|].
        exists w'. rewrite upd_other by congruence. exact H'.
    + intros b w' n H. destruct (Nat.eq_dec b a) as [->|N].
      * rewrite upd_same in H. injection H as <- <-. apply updN_same.
      * rewrite upd_other in H by exact N.
        pose proof (i_wait _ _ I _ _ _ H) as H'.
        destruct (i_pend _ _ I _ _ H') as (Hn & _). rewrite updN_other by lia. exact H'.
    + assert (X : forall b o, b <> a -> on w = Some o -> busy (c_act s b) o -> False).
      { intros b o N Ho Hb. exact (i_ready _ _ I b o (Hw o Ho) Hb). }
      intros b c k Hb Hc.
      destruct (Nat.eq_dec b a) as [->|N]; destruct (Nat.eq_dec c a) as [->|N']; [reflexivity| | |].
      * exfalso. rewrite upd_same in Hb. rewrite upd_other in Hc by exact N'. exact (X c k N' Hb Hc).
      * exfalso. rewrite upd_same in Hc. rewrite upd_other in Hb by exact N. exact (X b k N Hc Hb).
      * rewrite upd_other in Hb, Hc by assumption. eapply i_one; eauto.
    + intros b k H Hb. destruct (Qo k) as [Q|[_ Q]]; [|congruence].
      destruct (Nat.eq_dec b a) as [->|N].
      * rewrite upd_same in Hb. unfold s0, claim_obj in H. cbn [busy] in Hb. rewrite Hb in H.
        cbn [set_obj c_obj] in H. rewrite upd_same in H. discriminate H.
      * rewrite upd_other in Hb by exact N. rewrite Q in H. eapply i_ready; eauto.
    + intros k H. destruct (Qo k) as [Q|[Q1 Q]].
      * rewrite Q in H. destruct (i_pending _ _ I k H) as (b & HB). exists b.
        destruct (Nat.eq_dec b a) as [->|N].
        -- exfalso. rewrite Ha, L in HB. destruct HB as [[]|(w' & n & r' & e' & _ & _ & C)]; discriminate C.
        -- rewrite upd_other, LB by exact N. exact HB.
      * exists a. left. rewrite upd_same. exact Q1.
Qed.

(** the response to a pending promise *)
Lemma inv_match (s : tst) tr h m a w g : inv s tr ->
  c_pend s (h_seq h) = Some a -> c_act s a = Some (w, g) ->
  forall s1, c_seq s1 = c_seq s -> c_pend s1 = c_pend s -> c_act s1 = c_act s ->
    c_obj s1 = c_obj s ->
  inv (set_act (set_pend s1 (updN (c_pend s1) (h_seq h) None)) a w (TGot (h_seq h) m))
      (tr ++ [VRead h m; VMatch a (h_seq h) m]).
Proof.
  intros I Hp Ha s1 Qs Qp Qa Qo.
  destruct (i_pend _ _ I _ _ Hp) as (Hn & w' & Ha'). rewrite Ha in Ha'. injection Ha' as <- ->.
  assert (LA : life a (tr ++ [VRead h m; VMatch a (h_seq h) m])
               = [VCall a w; VNum a (h_seq h) SOk; VMatch a (h_seq h) m]).
  { rewrite life_app. pose proof (i_shape _ _ I a) as S. rewrite Ha in S. cbn [shape] in S.
    rewrite S. unfold life. cbn [filter about]. rewrite !Nat.eqb_refl. reflexivity. }
  assert (LB : forall b, b <> a -> life b (tr ++ [VRead h m; VMatch a (h_seq h) m]) = life b tr).
  { intros b N. rewrite life_app. unfold life at 2. cbn [filter about].
    apply not_eq_sym, Nat.eqb_neq in N. rewrite N. apply app_nil_r. }
  assert (BU : forall b o, busy (upd (c_act s) a (Some (w, TGot (h_seq h) m)) b) o <->
                           busy (c_act s b) o).
  { intros b o. destruct (Nat.eq_dec b a) as [->|N].
    - rewrite upd_same, Ha. reflexivity.
    - rewrite upd_other by exact N. reflexivity. }
  constructor; rewrite ?nums_app; cbn [nums flat_map app]; rewrite ?app_nil_r;
    cbn [set_act set_pend c_seq c_pend c_act c_obj]; rewrite ?Qs, ?Qp, ?Qa, ?Qo; try apply I.
  - intro b. destruct (Nat.eq_dec b a) as [->|N].
    + rewrite upd_same, LA. reflexivity.
    + rewrite upd_other, LB by exact N. apply I.
  - intros n b H. destruct (N.eq_dec n (h_seq h)) as [->|Nn].
    + rewrite updN_same in H. discriminate H.
    + rewrite updN_other in H by exact Nn. destruct (i_pend _ _ I _ _ H) as (Hn' & w' & H').
      split; [exact Hn'|]. exists w'. rewrite upd_other by congruence. exact H'.
  - intros b w' n H. destruct (Nat.eq_dec b a) as [->|N].
    + rewrite upd_same in H. discriminate H.
    + rewrite upd_other in H by exact N. pose proof (i_wait _ _ I _ _ _ H) as H'.
      rewrite updN_other by congruence. exact H'.
  - intros b c o Hb Hc. apply BU in Hb, Hc. eapply i_one; eauto.
  - intros b o H Hb. apply BU in Hb. eapply i_ready; eauto.
  - intros o H. destruct (i_pending _ _ I o H) as (b & [HB|HB]); exists b.
    + left. apply BU. exact HB.
    + right. destruct (Nat.eq_dec b a) as [->|N].
      * exfalso. pose proof (i_shape _ _ I a) as S. rewrite Ha in S. cbn [shape] in S.
        rewrite S in HB. destruct HB as (? & ? & ? & ? & _ & _ & C). discriminate C.
      * rewrite LB by exact N. exact HB.
Qed.

(** the continuation of a promise ends it, or leaves [assign] resolved *)
Lemma inv_settle (s s1 : tst) tr a w n m g r more : inv s tr ->
  c_act s a = Some (w, TGot n m) ->
  c_seq s1 = c_seq s -> c_pend s1 = c_pend s -> c_act s1 = c_act s ->
  (forall o, c_obj s1 o = c_obj s o \/ (on w = Some o /\ c_obj s1 o = OReady)) ->
  (g = TDone \/ exists u, g = THash u /\ w = WAssign true /\ t_self E m = Some u /\ r = RetUuid u) ->
  fits w m r -> nums more = [] -> (forall b, life b more = []) ->
  (forall o, on w = Some o -> c_obj s1 o <> OPending) ->
  inv (set_act s1 a w g) (tr ++ VRet a r :: more).
Proof.
  intros I Ha Qs Qp Qa Qo Hg Hf Hn Hl Hd.
  pose proof (i_shape _ _ I a) as S. rewrite Ha in S. cbn [shape] in S.
  assert (LM : forall b, life b (VRet a r :: more) = (if Nat.eqb a b then [VRet a r] else [])).
  { intro b. unfold life. cbn [filter about]. pose proof (Hl b) as H. unfold life in H. rewrite H.
    reflexivity. }
  assert (BU : forall b o, busy (upd (c_act s) a (Some (w, g)) b) o -> busy (c_act s b) o /\ b <> a).
  { intros b o H. destruct (Nat.eq_dec b a) as [->|N].
    - rewrite upd_same in H. destruct Hg as [->|(u & -> & _)]; destruct H.
    - rewrite upd_other in H by exact N. auto. }
  assert (NM : nums (VRet a r :: more) = []) by exact Hn.
  constructor; rewrite ?nums_app, ?NM, ?app_nil_r;
    cbn [set_act c_seq c_pend c_act c_obj]; rewrite ?Qs, ?Qp, ?Qa; try apply I.
  - intro b. rewrite life_app, LM. destruct (Nat.eq_dec b a) as [->|N].
    + rewrite upd_same, Nat.eqb_refl, S. cbn [app].
      destruct Hg as [->|(u & -> & Hw & Hu & ->)]; cbn [shape].
      * right. right. exists n, m, r. auto.
      * exists n, m. auto.
    + rewrite upd_other by exact N. apply not_eq_sym, Nat.eqb_neq in N. rewrite N, app_nil_r. apply I.
  - intros k b H. destruct (i_pend _ _ I k b H) as (Hk & w' & H'). split; [exact Hk|].
    exists w'. rewrite upd_other by congruence. exact H'.
  - intros b w' k H. destruct (Nat.eq_dec b a) as [->|N].
    + rewrite upd_same in H. destruct Hg as [->|(u & -> & _)]; discriminate H.
    + rewrite upd_other in H by exact N. eapply i_wait; eauto.
  - intros b c o Hb Hc. apply BU in Hb as (Hb & _). apply BU in Hc as (Hc & _). eapply i_one; eauto.
  - intros b o H Hb. apply BU in Hb as (Hb & N). destruct (Qo o) as [Q|(Q & _)].
    + rewrite Q in H. eapply i_ready; eauto.
    + apply N. eapply i_one; [exact I|exact Hb|]. rewrite Ha. exact Q.
  - intros o H. destruct (Qo o) as [Q|(Q & H')]; [|rewrite H in H'; discriminate H'].
    rewrite Q in H. destruct (i_pending _ _ I o H) as (b & HB). exists b.
    destruct (Nat.eq_dec b a) as [->|N].
    + exfalso. destruct HB as [HB|HB].
      * rewrite Ha in HB. cbn [busy] in HB. apply (Hd o HB). congruence.
      * rewrite S in HB. destruct HB as (? & ? & ? & ? & _ & _ & C). discriminate C.
    + rewrite upd_other, life_app, LM by exact N.
      apply not_eq_sym, Nat.eqb_neq in N. rewrite N, app_nil_r. exact HB.
Qed.

Lemma inv_resume (s s' : tst) tr a w n m es : inv s tr ->
  c_act s a = Some (w, TGot n m) -> resume E s a w m = (s', es) -> inv s' (tr ++ es).
Proof.
  intros I Ha R. unfold resume in R.
  assert (NR : forall o, on w = Some o -> c_obj s o <> OReady).
  { intros o Ho C. apply (i_ready _ _ I a o C). rewrite Ha. exact Ho. }
  destruct w as [auto|u|q o|b o]; cbn [on] in NR.
  - destruct (t_self E m) as [u|] eqn:T.
    + destruct (c_uuid (set_uuid s (keep_uuid E (c_uuid s) u))) eqn:K.
      * injection R as <- <-. eapply inv_settle; eauto; try reflexivity; try discriminate.
        -- destruct auto; [right; exists u; auto|left; reflexivity].
        -- cbn [fits]. rewrite T. auto.
      * injection R as <- <-. eapply inv_settle; eauto; try reflexivity; try discriminate.
        cbn [fits]. rewrite T. auto.
    + injection R as <- <-. eapply inv_settle; eauto; try reflexivity; try discriminate.
      cbn [fits]. rewrite T. auto.
  - destruct (t_hash E m) as [[t|]|] eqn:T; injection R as <- <-;
      eapply inv_settle; eauto; try reflexivity; try discriminate; cbn [fits]; rewrite T; auto.
  - destruct (c_obj s o) eqn:O; [destruct (NR o eq_refl O)| |]; injection R as <- <-.
    + eapply inv_settle; eauto; try reflexivity.
      * intro k. cbn [set_obj c_obj]. destruct (Nat.eq_dec k o) as [->|N];
          [rewrite upd_same; right; auto|rewrite upd_other; auto].
      * cbn [fits]. right. destruct (t_answer E q m); reflexivity.
      * intros k [= <-]. cbn [set_obj c_obj]. rewrite upd_same. discriminate.
    + eapply inv_settle; eauto; try reflexivity; [cbn [fits]; auto|].
      intros k [= <-]. rewrite O. discriminate.
  - destruct (c_obj s o) eqn:O; [destruct (NR o eq_refl O)| |]; injection R as <- <-.
    + eapply inv_settle; eauto; try reflexivity.
      * intro k. cbn [set_obj c_obj]. destruct (Nat.eq_dec k o) as [->|N];
          [rewrite upd_same; right; auto|rewrite upd_other; auto].
      * cbn [fits]. right. destruct (t_beacon E m) as [[t|]|]; reflexivity.
      * intros k [= <-]. cbn [set_obj c_obj]. rewrite upd_same. discriminate.
    + eapply inv_settle; eauto; try reflexivity; [cbn [fits]; auto|].
      intros k [= <-]. rewrite O. discriminate.
Qed.

Lemma inv_send (s s' : tst) tr a w o r es : inv s tr -> on w = Some o ->
  send E s a w o r = Some (s', es) -> inv s' (tr ++ es).
Proof.
  intros I Ho H. unfold send in H. destruct (c_act s a) eqn:Ha; [discriminate H|].
  destruct (c_obj s o) eqn:O.
  - apply (inv_begin s s' tr a w r es I).
    + intros k Hk. assert (k = o) as -> by congruence. exact O.
    + unfold claim_obj. rewrite Ho. exact H.
  - injection H as <- <-. eapply inv_refused; eauto.
  - injection H as <- <-. eapply inv_refused; eauto.
Qed.

Lemma inv_quiet (s : tst) tr : inv s tr -> forall s', c_seq s' = c_seq s ->
  c_pend s' = c_pend s -> c_act s' = c_act s -> c_obj s' = c_obj s -> inv s' tr.
Proof.
  intros I s' A B C D. rewrite <- (app_nil_r tr). eapply inv_inert; eauto.
Qed.

(** the continuation of [assign]: the promise is settled *)
Lemma inv_hashing (s : tst) tr a w u : inv s tr -> c_act s a = Some (w, THash u) ->
  inv (set_act s a w (TDone)) tr.
Proof.
  intros I Ha. pose proof (i_shape _ _ I a) as S. rewrite Ha in S.
  destruct S as (n & m & Hw & Hu & S).
  assert (BU : forall b o, busy (upd (c_act s) a (Some (w, TDone)) b) o <-> busy (c_act s b) o).
  { intros b o. destruct (Nat.eq_dec b a) as [->|N].
    - rewrite upd_same, Ha. reflexivity.
    - rewrite upd_other by exact N. reflexivity. }
  constructor; cbn [set_act c_seq c_pend c_act c_obj]; try apply I.
  - intro b. destruct (Nat.eq_dec b a) as [->|N].
    + rewrite upd_same, S. right. right. exists n, m, (RetUuid u).
      split; [|reflexivity]. subst w. cbn [fits]. rewrite Hu. auto.
    + rewrite upd_other by exact N. apply I.
  - intros k b H. destruct (i_pend _ _ I k b H) as (Hk & w' & H'). split; [exact Hk|].
    exists w'. rewrite upd_other by congruence. exact H'.
  - intros b w' k H. destruct (Nat.eq_dec b a) as [->|N].
    + rewrite upd_same in H. discriminate H.
    + rewrite upd_other in H by exact N. eapply i_wait; eauto.
  - intros b c o Hb Hc. apply BU in Hb, Hc. eapply i_one; eauto.
  - intros b o H Hb. apply BU in Hb. eapply i_ready; eauto.
  - intros o H. destruct (i_pending _ _ I o H) as (b & [HB|HB]); exists b; [left; apply BU|right]; auto.
Qed.

Lemma inv_fire (s s' : tst) tr l es : inv s tr -> fire E s l = Some (s', es) -> inv s' (tr ++ es).
Proof.
  intros I F. destruct l; cbn [fire] in F.
  - destruct w; try discriminate F; (eapply inv_send; [exact I| |exact F]; reflexivity).
  - apply (inv_begin s s' tr a (WAssign false) r es I); [discriminate|exact F].
  - injection F as <- <-. apply inv_destroy, I.
  - destruct (c_drain s); [discriminate F|].
    destruct (begin E s a (WAssign true) r) as [[s1 es1]|] eqn:B; [|discriminate F].
    injection F as <- <-. rewrite app_assoc.
    eapply inv_inert; try reflexivity.
    apply (inv_begin s s1 tr a (WAssign true) r es1 I); [discriminate|exact B].
  - destruct (c_drain s); [discriminate F|]. injection F as <- <-.
    eapply inv_inert; eauto.
  - destruct (c_drain s); [discriminate F|]. injection F as <- <-.
    eapply inv_inert; eauto.
  - destruct (c_drain s); [discriminate F|].
    destruct (ts_chunk (t_get E) (t_sig E) fuel (c_buf s) data) as [[o b]|]; [|discriminate F].
    injection F as <- <-. eapply inv_inert; eauto.
  - destruct (c_drain s) eqn:D; [|discriminate F].
    destruct (rb_queue (c_buf s)) as [|[h m] q].
    + injection F as <- <-. eapply inv_inert; eauto.
    + cbn [set_buf c_pend c_act] in F.
      destruct (c_pend s (h_seq h)) as [a|] eqn:P.
      * destruct (c_act s a) as [[w g]|] eqn:A; [|discriminate F].
        injection F as <- <-.
        eapply (inv_match s tr h m a w g I P A (set_buf s (mkBuf (rb_buf (c_buf s)) q) true));
          reflexivity.
      * destruct (t_broadcast E m); injection F as <- <-; eapply inv_inert; eauto.
  - destruct (c_drain s); [discriminate F|].
    destruct (c_act s a) as [[w [| | |]]|] eqn:A; try discriminate F.
    injection F as F. eapply inv_resume; eauto.
  - destruct (c_drain s); [discriminate F|].
    destruct (c_act s a) as [[w [| |u|]]|] eqn:A; try discriminate F.
    apply (inv_begin (set_act s a w (TDone)) s' tr b (WHash u) r es);
      [eapply inv_hashing; eauto|discriminate|exact F].
Qed.

Theorem trun_inv ls s tr : trun E ls s tr -> inv s tr.
Proof. induction 1; [apply inv_init|eapply inv_fire; eauto]. Qed.

End Proofs.
