(** Invariants of the TypeScript producer (TsServerModel.v). *)
From Coq Require Import List NArith Arith Bool Lia.
From Verif Require Import Bytes WireModel FrameModel TsModel TsReader TsServerModel.
From Verif Require ProducerModel ProducerProofs.
Import ListNotations.
Open Scope N_scope.

Ltac inv_fire F :=
  match type of F with fire _ _ ?l = _ => destruct l end;
  cbn [fire] in F; unfold handle, fail in F; cbv zeta in F;
  repeat match type of F with
  | context [match ?x with _ => _ end] => destruct x eqn:?; try discriminate F
  end;
  try (injection F as <- <-).

Section Proofs.
Variable E : qenv.
Local Notation M := (q_msg E).
Local Notation X := (q_out E).
Local Notation qst := (qst M X).
Local Notation qev := (qev M X).
Local Notation kons := (kons M).

(** The step in which an event happened. *)
Lemma qrun_split ls s tr : qrun E ls s tr -> forall p (e : qev) q, tr = p ++ e :: q ->
  exists ls1 s1 tr1 l s2 e1 e2,
    qrun E ls1 s1 tr1 /\ fire E s1 l = Some (s2, e1 ++ e :: e2) /\ p = tr1 ++ e1 /\
    exists q', q = e2 ++ q'.
Proof.
  induction 1 as [|ls s tr l s' es R IH F]; intros p e q Q.
  - destruct p; discriminate Q.
  - destruct (Nat.lt_ge_cases (length p) (length tr)) as [L|L].
    + assert (exists q0, tr = p ++ e :: q0 /\ q = q0 ++ es) as (q0 & Q1 & Q2).
      { assert (K : firstn (length p) tr = p).
        { apply (f_equal (firstn (length p))) in Q.
          rewrite firstn_app, (firstn_app (length p) p), Nat.sub_diag, firstn_all in Q.
          replace (length p - length tr)%nat with O in Q by lia. cbn [firstn] in Q.
          rewrite !app_nil_r in Q. exact Q. }
        rewrite <- (firstn_skipn (length p) tr), K, <- app_assoc in Q.
        apply app_inv_head in Q.
        destruct (skipn (length p) tr) as [|x t] eqn:T.
        - apply (f_equal (@length _)) in T. rewrite skipn_length in T. cbn [length] in T. lia.
        - cbn [app] in Q. injection Q as -> <-. exists t. split; [|reflexivity].
          rewrite <- K at 1. rewrite <- T. symmetry. apply firstn_skipn. }
      destruct (IH p e q0 Q1) as (ls1 & s1 & tr1 & l1 & s2 & e1 & e2 & A & B & C & q' & D).
      exists ls1, s1, tr1, l1, s2, e1, e2. repeat split; auto. exists (q' ++ es).
      rewrite Q2, D, app_assoc. reflexivity.
    + assert (exists e1, p = tr ++ e1 /\ es = e1 ++ e :: q) as (e1 & Q1 & Q2).
      { exists (skipn (length tr) p).
        assert (K : firstn (length tr) p = tr).
        { apply (f_equal (firstn (length tr))) in Q.
          rewrite (firstn_app (length tr) p), firstn_app, Nat.sub_diag, firstn_all in Q.
          replace (length tr - length p)%nat with O in Q by lia. cbn [firstn] in Q.
          rewrite !app_nil_r in Q. symmetry. exact Q. }
        split.
        - rewrite <- K at 1. symmetry. apply firstn_skipn.
        - rewrite <- (firstn_skipn (length tr) p), K, <- app_assoc in Q.
          apply app_inv_head in Q. exact Q. }
      subst es. exists ls, s, tr, l, s', e1, q. repeat split; auto. exists []. rewrite app_nil_r. reflexivity.
Qed.

(** ** The life of a handler *)

Definition about (t : nat) (e : qev) : bool :=
  match e with
  | OStart t' _ _ _ | OResult t' _ _ | OSend (ByTask t') _ _ _ | OBroad (Some t') _ _
  | OFail t' | ODeferred t' => Nat.eqb t' t
  | _ => false
  end.
Definition life (t : nat) (tr : list qev) : list qev := filter (about t) tr.

Lemma life_app t a b : life t (a ++ b) = life t a ++ life t b.
Proof. apply filter_app. Qed.

Lemma in_life t tr (e : qev) : about t e = true -> (In e (life t tr) <-> In e tr).
Proof. intro H. unfold life. rewrite filter_In. tauto. Qed.

(** What a handler has said: its answer, with the broadcasts [bs]. *)
Definition said (kind : bool * nat) (t : nat) (u n : N) (bs : list (list N * X)) (a : list qev) : Prop :=
  match kind with
  | (true, r) => exists x ops, bs = r_bs (build E (q_req E r) x ops) /\
      (many (q_req E r) = true -> response_error E (q_req E r) (build E (q_req E r) x ops) = false) /\
      a = [OResult t x bs; OSend (ByTask t) u n (PAnswer x)]
  | (false, _) => bs = [] /\ a = [OSend (ByTask t) u n PConfirm]
  end.

Definition shape (t : nat) (j : task X) (u : N) (l : list qev) : Prop :=
  exists h m, h_seq h = j_num j /\ q_for E m = Some (j_kind j) /\
  let st := OStart t (j_obj j) h m in
  match j_stage j with
  | QRun => l = [st]
  | QSent bs => exists a, said (j_kind j) t u (j_num j) bs a /\ l = st :: a
  | QLast => exists bs a, said (j_kind j) t u (j_num j) bs a /\
      l = st :: a ++ broadcast_all E (Some t) bs None
  | QDone =>
      l = [st; OFail t] \/
      exists bs a, said (j_kind j) t u (j_num j) bs a /\
        (l = st :: a ++ [OFail t] \/
         (exists n, (n < length bs)%nat /\ l = st :: a ++ broadcast_all E (Some t) bs (Some n) ++ [OFail t]) \/
         l = st :: a ++ broadcast_all E (Some t) bs None ++ [ODeferred t] \/
         l = st :: a ++ broadcast_all E (Some t) bs None ++ [ODeferred t; OFail t])
  end.

(** ** What is known of a state *)

Record inv (s : qst) (tr : list qev) : Prop := mkInv {
  i_fresh : forall o, (p_objs s <= o)%nat -> p_obj s o = None;
  i_map : forall u o, p_map s u = Some o -> exists c, p_obj s o = Some c /\ k_uuid c = u;
  i_conn : forall o c, p_obj s o = Some c -> In (OConnected (k_uuid c) o) tr;
  i_made : forall u o, In (OConnected u o) tr -> exists c, p_obj s o = Some c /\ k_uuid c = u;
  i_hash : forall o c, p_obj s o = Some c -> k_hash c = true -> exists h m,
    In (ORead o h m) tr /\ q_hash E m = Some (q_proto E, q_work E);
  i_key : forall o c, p_obj s o = Some c -> k_key c = true ->
    In (OKey o true) tr \/ exists h m, In (ORead o h m) tr /\ q_self E m = true;
  i_loop : forall o, p_loop s = Some o -> p_obj s o <> None;
  i_tfresh : forall t, (p_tasks s <= t)%nat -> p_task s t = None /\ life t tr = [];
  i_task : forall t, (t < p_tasks s)%nat -> exists j c,
    p_task s t = Some j /\ p_obj s (j_obj j) = Some c /\ shape t j (k_uuid c) (life t tr)
}.

Lemma inv_init : inv qinit [].
Proof.
  split; cbn [p_map p_obj p_objs p_loop p_task p_tasks qinit]; intros; try discriminate; auto.
  - elim H.
  - lia.
Qed.

(** Steps that make no task progress *)
Definition idle_event (e : qev) : Prop := forall t, about t e = false.

Lemma life_idle t es : (forall e, In e es -> idle_event e) -> life t es = [].
Proof.
  induction es as [|e es IH]; intro H; [reflexivity|]. unfold life. cbn [filter].
  rewrite (H e (or_introl eq_refl) t). apply IH. intros x Hx. apply H. right. exact Hx.
Qed.

Lemma receiving_idle u o e : In e (receiving_err E u o) -> idle_event e.
Proof.
  unfold receiving_err. intros H t. destruct (q_cs E), o; cbn [app In] in H;
    repeat destruct H as [<-|H]; try reflexivity; elim H.
Qed.
Lemma life_receiving t u o : life t (receiving_err E u o) = [].
Proof. apply life_idle. intros e. apply receiving_idle. Qed.

Lemma receiving_conn u o v x : ~ In (OConnected v x) (receiving_err E u o).
Proof.
  unfold receiving_err. intro H. destruct (q_cs E), o; cbn [app In] in H;
    repeat destruct H as [H|H]; try discriminate H; elim H.
Qed.

Lemma in_broadcast c bs k e : In e (broadcast_all E c bs k) ->
  exists us x u, In (us, x) bs /\ In u us /\ e = OBroad c u x.
Proof.
  unfold broadcast_all. intro H. apply in_flat_map in H as ((us & x) & H1 & H2).
  apply in_map_iff in H2 as (u & <- & H2). exists us, x, u. split; [|auto].
  destruct k as [n|]; [|exact H1]. rewrite <- (firstn_skipn n bs). apply in_app_iff. auto.
Qed.
Lemma broadcast_conn c bs k v x : ~ In (OConnected v x) (broadcast_all E c bs k).
Proof. intro H. apply in_broadcast in H as (us & y & u & _ & _ & H). discriminate H. Qed.
Lemma life_broadcast t bs k : life t (broadcast_all E (Some t) bs k) = broadcast_all E (Some t) bs k.
Proof.
  assert (K : forall es : list qev, (forall e, In e es -> about t e = true) -> life t es = es).
  { induction es as [|e es IH]; intro H; [reflexivity|]. unfold life in *. cbn [filter].
    rewrite (H e (or_introl eq_refl)). f_equal. apply IH. intros x Hx. apply H. right. exact Hx. }
  apply K. intros e H. apply in_broadcast in H as (us & y & u & _ & _ & ->). apply Nat.eqb_refl.
Qed.
Lemma life_broadcast_other t c bs k : c <> Some t -> life t (broadcast_all E c bs k) = [].
Proof.
  intros N. assert (K : forall es : list qev, (forall e, In e es -> about t e = false) -> life t es = []).
  { induction es as [|e es IH]; intro H; [reflexivity|]. unfold life in *. cbn [filter].
    rewrite (H e (or_introl eq_refl)). apply IH. intros x Hx. apply H. right. exact Hx. }
  apply K. intros e H. apply in_broadcast in H as (us & y & u & _ & _ & ->). cbn [about].
  destruct c as [t'|]; [|reflexivity]. apply Nat.eqb_neq. congruence.
Qed.

Lemma broadcast_whole c bs k : broken E bs k = false -> broadcast_all E c bs k = broadcast_all E c bs None.
Proof.
  unfold broken, broadcast_all. destruct k as [n|]; [|reflexivity]. intro H. apply Nat.ltb_ge in H.
  rewrite firstn_all2 by exact H. reflexivity.
Qed.

(** ** Updating *)
Lemma updn_same {A} (f : nat -> A) a x : updn f a x a = x.
Proof. unfold updn. rewrite Nat.eqb_refl. reflexivity. Qed.
Lemma updn_other {A} (f : nat -> A) a x b : b <> a -> updn f a x b = f b.
Proof. unfold updn. intro H. apply Nat.eqb_neq in H. rewrite H. reflexivity. Qed.

(** Only the values of the maps matter. *)
Lemma inv_ext s s' tr : p_map s' = p_map s /\ (forall o, p_obj s' o = p_obj s o) /\ p_objs s' = p_objs s /\
  p_loop s' = p_loop s /\ p_task s' = p_task s /\ p_tasks s' = p_tasks s -> inv s tr -> inv s' tr.
Proof.
  intros (H1 & H2 & H3 & H4 & H5 & H6) I. split; rewrite ?H1, ?H3, ?H4, ?H5, ?H6.
  - intros o H. rewrite H2. apply (i_fresh _ _ I o H).
  - intros u o H. rewrite H2. apply (i_map _ _ I u o H).
  - intros o c H. rewrite H2 in H. apply (i_conn _ _ I _ _ H).
  - intros u o H. rewrite H2. apply (i_made _ _ I u o H).
  - intros o c H. rewrite H2 in H. apply (i_hash _ _ I _ _ H).
  - intros o c H. rewrite H2 in H. apply (i_key _ _ I _ _ H).
  - intros o H. rewrite H2. apply (i_loop _ _ I o H).
  - apply (i_tfresh _ _ I).
  - intros t H. destruct (i_task _ _ I t H) as (j & c & A & B & C). exists j, c. rewrite H2. auto.
Qed.

(** A step that changes flags of objects, the map or the loop, and no handler. *)
Lemma inv_quiet s tr s' es :
  inv s tr ->
  p_task s' = p_task s -> p_tasks s' = p_tasks s -> p_objs s' = p_objs s ->
  (forall e, In e es -> idle_event e) ->
  (forall u o, ~ In (OConnected u o) es) ->
  (forall o, p_obj s o = None -> p_obj s' o = None) ->
  (forall o c, p_obj s o = Some c -> exists c', p_obj s' o = Some c' /\ k_uuid c' = k_uuid c /\
     (k_hash c' = true -> k_hash c = true \/ exists h m, In (ORead o h m) es /\ q_hash E m = Some (q_proto E, q_work E)) /\
     (k_key c' = true -> k_key c = true \/ In (OKey o true) es \/ exists h m, In (ORead o h m) es /\ q_self E m = true)) ->
  (forall u o, p_map s' u = Some o -> p_map s u = Some o) ->
  (forall o, p_loop s' = Some o -> p_obj s o <> None) ->
  inv s' (tr ++ es).
Proof.
  intros I T1 T2 O1 ID NC ON OS MP LP.
  assert (BACK : forall o c', p_obj s' o = Some c' -> exists c, p_obj s o = Some c /\ k_uuid c' = k_uuid c /\
     (k_hash c' = true -> k_hash c = true \/ exists h m, In (ORead o h m) es /\ q_hash E m = Some (q_proto E, q_work E)) /\
     (k_key c' = true -> k_key c = true \/ In (OKey o true) es \/ exists h m, In (ORead o h m) es /\ q_self E m = true)).
  { intros o c' H. destruct (p_obj s o) as [c|] eqn:Q; [|rewrite (ON o Q) in H; discriminate H].
    destruct (OS o c Q) as (c1 & H1 & H2). rewrite H in H1. injection H1 as <-. eauto. }
  split.
  - intros o H. rewrite O1 in H. apply ON, (i_fresh _ _ I o H).
  - intros u o H. apply MP in H. destruct (i_map _ _ I u o H) as (c & H1 & H2).
    destruct (OS o c H1) as (c' & H3 & H4 & _). exists c'. split; [exact H3|congruence].
  - intros o c' H. destruct (BACK o c' H) as (c & H1 & H2 & _). apply in_app_iff. left. rewrite H2.
    apply (i_conn _ _ I _ _ H1).
  - intros u o H. apply in_app_iff in H as [H|H]; [|elim (NC u o H)].
    destruct (i_made _ _ I u o H) as (c & H1 & H2).
    destruct (OS o c H1) as (c' & H3 & H4 & _). exists c'. split; [exact H3|congruence].
  - intros o c' H HH. destruct (BACK o c' H) as (c & H1 & _ & H2 & _).
    destruct (H2 HH) as [K|(h & m & K1 & K2)].
    + destruct (i_hash _ _ I o c H1 K) as (h & m & A & B). exists h, m. split; [apply in_app_iff; auto|exact B].
    + exists h, m. split; [apply in_app_iff; auto|exact K2].
  - intros o c' H HH. destruct (BACK o c' H) as (c & H1 & _ & _ & H2).
    destruct (H2 HH) as [K|[K|(h & m & K1 & K2)]].
    + destruct (i_key _ _ I o c H1 K) as [A|(h & m & A & B)]; [left; apply in_app_iff; auto|].
      right. exists h, m. split; [apply in_app_iff; auto|exact B].
    + left. apply in_app_iff. auto.
    + right. exists h, m. split; [apply in_app_iff; auto|exact K2].
  - intros o H. destruct (p_obj s o) as [c|] eqn:Q; [|elim (LP o H Q)].
    destruct (OS o c Q) as (c' & H1 & _). congruence.
  - intros t H. rewrite T2 in H. destruct (i_tfresh _ _ I t H) as (H1 & H2).
    rewrite T1, life_app, H2, (life_idle t es) by exact ID. auto.
  - intros t H. rewrite T2 in H. destruct (i_task _ _ I t H) as (j & c & H1 & H2 & H3).
    destruct (OS _ c H2) as (c' & H4 & H5 & _). exists j, c'. rewrite T1. split; [exact H1|]. split; [exact H4|].
    rewrite H5, life_app, (life_idle t es), app_nil_r by exact ID. exact H3.
Qed.

(** A step of handler [t]. *)
Lemma inv_task s tr t j j' c es :
  inv s tr -> p_task s t = Some j -> p_obj s (j_obj j) = Some c -> j_obj j' = j_obj j ->
  (forall e, In e es -> forall t', t' <> t -> about t' e = false) ->
  (forall u o, ~ In (OConnected u o) es) ->
  shape t j' (k_uuid c) (life t (tr ++ es)) ->
  inv (put_task s t j') (tr ++ es).
Proof.
  intros I HT HO HJ AB NC SH.
  assert (LO : forall t', t' <> t -> life t' es = []).
  { intros t' N. assert (K : forall e, In e es -> about t' e = false) by (intros e He; apply (AB e He t' N)).
    clear -K. induction es as [|e es IH]; [reflexivity|]. unfold life in *. cbn [filter].
    rewrite (K e (or_introl eq_refl)). apply IH. intros x Hx. apply K. right. exact Hx. }
  split; cbn [put_task p_map p_obj p_objs p_loop p_task p_tasks].
  - apply I.
  - apply I.
  - intros o c' H. apply in_app_iff. left. apply (i_conn _ _ I _ _ H).
  - intros u o H. apply in_app_iff in H as [H|H]; [|elim (NC u o H)]. apply (i_made _ _ I u o H).
  - intros o c' H HH. destruct (i_hash _ _ I o c' H HH) as (h & m & A & B). exists h, m.
    split; [apply in_app_iff; auto|exact B].
  - intros o c' H HH. destruct (i_key _ _ I o c' H HH) as [A|(h & m & A & B)]; [left; apply in_app_iff; auto|].
    right. exists h, m. split; [apply in_app_iff; auto|exact B].
  - apply I.
  - intros t' H. destruct (Nat.eq_dec t' t) as [->|N].
    + destruct (i_tfresh _ _ I t H) as (H1 & _). congruence.
    + rewrite updn_other by exact N. rewrite life_app, LO, app_nil_r by exact N. apply (i_tfresh _ _ I t' H).
  - intros t' H. destruct (Nat.eq_dec t' t) as [->|N].
    + rewrite updn_same. exists j', c. rewrite HJ. auto.
    + rewrite updn_other by exact N. rewrite life_app, LO, app_nil_r by exact N. apply (i_task _ _ I t' H).
Qed.

Lemma task_lt s tr t j : inv s tr -> p_task s t = Some j -> (t < p_tasks s)%nat.
Proof.
  intros I H. destruct (Nat.lt_ge_cases t (p_tasks s)) as [L|L]; [exact L|].
  destruct (i_tfresh _ _ I t L) as (H1 & _). congruence.
Qed.

Lemma task_shape s tr t j c : inv s tr -> p_task s t = Some j -> p_obj s (j_obj j) = Some c ->
  shape t j (k_uuid c) (life t tr).
Proof.
  intros I H HO. destruct (i_task _ _ I t (task_lt _ _ _ _ I H)) as (j' & c' & H1 & H2 & H3).
  rewrite H in H1. injection H1 as <-. rewrite HO in H2. injection H2 as <-. exact H3.
Qed.

(** A handler is started by the loop, from object [o]. *)
Lemma inv_start s tr o c h m kind q :
  inv s tr -> p_obj s o = Some c -> q_for E m = Some kind -> p_loop s <> None ->
  inv (mkQst (p_map s) (updn (p_obj s) o (Some (put_buf c q))) (p_objs s) (p_loop s)
         (updn (p_task s) (p_tasks s) (Some (mkTask o kind (h_seq h) QRun))) (S (p_tasks s)))
      (tr ++ [ORead o h m; OStart (p_tasks s) o h m]).
Proof.
  intros I HO HF HL. set (t := p_tasks s).
  assert (I1 : inv (put_obj s o (put_buf c q)) (tr ++ [ORead o h m])).
  { apply (inv_quiet s); auto.
    - intros e [<-|[]] t'. reflexivity.
    - intros u v [H|[]]. discriminate H.
    - intros v H. cbn [put_obj p_obj]. destruct (Nat.eq_dec v o) as [->|N]; [congruence|].
      rewrite updn_other by exact N. exact H.
    - intros v d H. cbn [put_obj p_obj]. destruct (Nat.eq_dec v o) as [->|N].
      + rewrite updn_same. rewrite HO in H. injection H as <-. exists (put_buf c q). cbn [put_buf k_uuid k_hash k_key]. auto 7.
      + rewrite updn_other by exact N. eauto 8.
    - intros v H. cbn [put_obj p_loop] in H. apply (i_loop _ _ I v H). }
  assert (LF : forall t', life t' [ORead o h m; OStart t o h m] = if Nat.eqb t t' then [OStart t o h m] else []).
  { intros t'. unfold life. cbn [filter about]. destruct (Nat.eqb t t'); reflexivity. }
  replace (tr ++ [ORead o h m; OStart t o h m]) with ((tr ++ [ORead o h m]) ++ [OStart t o h m]) by (rewrite <- app_assoc; reflexivity).
  split; cbn [p_map p_obj p_objs p_loop p_task p_tasks].
  - apply (i_fresh _ _ I1).
  - apply (i_map _ _ I1).
  - intros v d H. apply in_app_iff. left. apply (i_conn _ _ I1 _ _ H).
  - intros u v H. apply in_app_iff in H as [H|[H|[]]]; [|discriminate H]. apply (i_made _ _ I1 u v H).
  - intros v d H HH. destruct (i_hash _ _ I1 v d H HH) as (h' & m' & A & B). exists h', m'.
    split; [apply in_app_iff; auto|exact B].
  - intros v d H HH. destruct (i_key _ _ I1 v d H HH) as [A|(h' & m' & A & B)]; [left; apply in_app_iff; auto|].
    right. exists h', m'. split; [apply in_app_iff; auto|exact B].
  - apply (i_loop _ _ I1).
  - intros t' H. rewrite updn_other by lia. destruct (i_tfresh _ _ I1 t') as (A & B); [cbn [put_obj p_tasks]; lia|].
    split; [exact A|]. rewrite life_app, B. unfold life. cbn [filter about app].
    destruct (Nat.eqb_spec t t'); [lia|reflexivity].
  - intros t' H. destruct (Nat.eq_dec t' t) as [->|N].
    + rewrite updn_same. exists (mkTask o kind (h_seq h) QRun), (put_buf c q). split; [reflexivity|].
      cbn [j_obj]. rewrite updn_same. split; [reflexivity|].
      destruct (i_tfresh _ _ I1 t) as (_ & B); [cbn [put_obj p_tasks]; lia|].
      rewrite life_app, B. exists h, m. cbn [j_num j_kind j_stage j_obj]. split; [reflexivity|]. split; [exact HF|].
      unfold life. cbn [filter about app]. rewrite Nat.eqb_refl. reflexivity.
    + rewrite updn_other by exact N. destruct (i_task _ _ I1 t') as (j & d & A & B & C); [cbn [put_obj p_tasks]; lia|].
      exists j, d. split; [exact A|]. split; [exact B|].
      rewrite life_app. replace (life t' [OStart t o h m]) with (@nil qev); [rewrite app_nil_r; exact C|].
      unfold life. cbn [filter about]. destruct (Nat.eqb_spec t t'); [congruence|reflexivity].
Qed.

(** Setting object [o] to [c'], reading nothing or reading [es]. *)
Lemma inv_put s tr s' o c c' es :
  inv s tr -> p_obj s o = Some c ->
  p_obj s' = updn (p_obj s) o (Some c') -> p_map s' = p_map s -> p_objs s' = p_objs s ->
  p_task s' = p_task s -> p_tasks s' = p_tasks s ->
  (forall v, p_loop s' = Some v -> p_loop s = Some v \/ v = o) ->
  k_uuid c' = k_uuid c ->
  (k_hash c' = true -> k_hash c = true \/ exists h m, In (ORead o h m) es /\ q_hash E m = Some (q_proto E, q_work E)) ->
  (k_key c' = true -> k_key c = true \/ In (OKey o true) es \/ exists h m, In (ORead o h m) es /\ q_self E m = true) ->
  (forall e, In e es -> idle_event e) ->
  (forall u v, ~ In (OConnected u v) es) ->
  inv s' (tr ++ es).
Proof.
  intros I HO H1 H2 H3 H4 H5 H6 U HH HK ID NC. apply (inv_quiet s); auto.
  - intros v H. rewrite H1. destruct (Nat.eq_dec v o) as [->|N]; [congruence|]. rewrite updn_other by exact N. exact H.
  - intros v d H. rewrite H1. destruct (Nat.eq_dec v o) as [->|N].
    + rewrite updn_same. rewrite HO in H. injection H as <-. exists c'. auto 7.
    + rewrite updn_other by exact N. eauto 8.
  - intros u v H. rewrite H2 in H. exact H.
  - intros v H. destruct (H6 v H) as [K| ->]; [apply (i_loop _ _ I v K)|congruence].
Qed.

(** Nothing changes. *)
Lemma inv_same s tr es : inv s tr -> (forall e, In e es -> idle_event e) ->
  (forall u v, ~ In (OConnected u v) es) -> inv s (tr ++ es).
Proof. intros I ID NC. apply (inv_quiet s); auto. - intros o c H. eauto 8. - intros o H. apply (i_loop _ _ I o H). Qed.


Lemma hashes_eq p w : ProducerModel.bytes_eqb p (q_proto E) && ProducerModel.bytes_eqb w (q_work E) = true ->
  Some (p, w) = Some (q_proto E, q_work E).
Proof.
  intro H. apply andb_true_iff in H as (H1 & H2). apply ProducerProofs.bytes_eqb_eq in H1, H2. congruence.
Qed.

Ltac idle_list := let e := fresh "e" in let H := fresh "H" in let t := fresh "t" in
  solve [intros e H t; cbn [In] in H;
  repeat match type of H with
  | _ \/ _ => destruct H as [H|H]
  | In _ (receiving_err _ _ _) => exact (receiving_idle _ _ _ H t)
  | False => elim H
  | _ = _ => rewrite <- H; reflexivity
  end].
Ltac no_conn := let u := fresh "u" in let v := fresh "v" in let H := fresh "H" in
  solve [intros u v H; cbn [In] in H;
  repeat match type of H with
  | _ \/ _ => destruct H as [H|H]
  | In _ (receiving_err _ _ _) => exact (receiving_conn _ _ _ _ H)
  | False => elim H
  | _ = _ => discriminate H
  end].

Lemma inv_next s tr s' es : inv s tr -> fire E s LNext = Some (s', es) -> inv s' (tr ++ es).
Proof.
  intros I F. cbn [fire] in F. destruct (p_loop s) as [o|] eqn:L; [|discriminate F].
  destruct (p_obj s o) as [c|] eqn:O; [|discriminate F].
  destruct (rb_queue (k_buf c)) as [|[h m] q] eqn:Q.
  { injection F as <- <-. apply (inv_quiet s); auto; try (intros; contradiction).
    - intros v d H. cbn [put_loop p_obj]. eauto 8.
    - intros v H. discriminate H. }
  set (b := mkBuf (rb_buf (k_buf c)) q) in F. set (c1 := put_buf c b) in F.
  set (s1 := put_obj s o c1) in F.
  destruct (handle E s1 o c1 h m) as (s2, es2) eqn:HD. injection F as <- <-.
  unfold handle in HD. cbv zeta in HD.
  assert (PUT : forall c' es', k_uuid c' = k_uuid c -> 
     (k_hash c' = true -> k_hash c = true \/ q_hash E m = Some (q_proto E, q_work E)) ->
     (k_key c' = true -> k_key c = true \/ q_self E m = true) ->
     (forall e, In e es' -> idle_event e) -> (forall u v, ~ In (OConnected u v) es') ->
     forall l, l = Some o \/ l = None ->
     inv (mkQst (p_map s) (updn (p_obj s) o (Some c')) (p_objs s) l (p_task s) (p_tasks s)) (tr ++ ORead o h m :: es')).
  { intros c' es' U HH HK ID NC l Hl. apply (inv_put s tr _ o c c'); auto.
    - intros v Hv. cbn [p_loop] in Hv. destruct Hl; [right|left]; congruence.
    - intro W. destruct (HH W) as [K|K]; [auto|]. right. exists h, m. split; [left; reflexivity|exact K].
    - intro W. destruct (HK W) as [K|K]; [auto|]. right. right. exists h, m. split; [left; reflexivity|exact K].
    - intros e [<-|H]; [intro t; reflexivity|apply ID; exact H].
    - intros u v [H|H]; [discriminate H|exact (NC u v H)]. }
  assert (S1 : forall es', (forall e, In e es' -> idle_event e) -> (forall u v, ~ In (OConnected u v) es') ->
     inv s1 (tr ++ ORead o h m :: es')).
  { intros es' ID NC. subst s1. unfold put_obj. rewrite L. apply PUT; auto. }
  assert (PUT2 : forall c' es', k_uuid c' = k_uuid c -> 
     (k_hash c' = true -> k_hash c = true \/ q_hash E m = Some (q_proto E, q_work E)) ->
     (k_key c' = true -> k_key c = true \/ q_self E m = true) ->
     (forall e, In e es' -> idle_event e) -> (forall u v, ~ In (OConnected u v) es') ->
     inv (put_obj s1 o c') (tr ++ ORead o h m :: es')).
  { intros c' es' U HH HK ID NC. specialize (PUT c' es' U HH HK ID NC (Some o) (or_introl eq_refl)).
    eapply inv_ext; [|exact PUT]. subst s1. cbn [put_obj p_map p_obj p_objs p_loop p_task p_tasks].
    repeat split; auto. intro k. unfold updn. destruct (Nat.eqb k o); reflexivity. }
  destruct (q_self E m && negb (k_hash c1)) eqn:SK.
  { injection HD as <- <-. apply andb_true_iff in SK as (SK & _). apply PUT2; auto; [idle_list|no_conn]. }
  destruct (q_hash E m) as [[p w]|] eqn:HM.
  { destruct (ProducerModel.bytes_eqb p (q_proto E) && ProducerModel.bytes_eqb w (q_work E)) eqn:V.
    - injection HD as <- <-. apply hashes_eq in V. apply PUT2; auto; [idle_list|no_conn].
    - injection HD as <- <-. apply S1; [idle_list|no_conn]. }
  destruct (negb (k_hash c1)); [injection HD as <- <-; apply S1; [idle_list|no_conn]|].
  destruct (negb (k_key c1)); [injection HD as <- <-; apply S1; [idle_list|no_conn]|].
  destruct (negb (assigned E c1) && _).
  { injection HD as <- <-. apply S1; [destruct (q_is E); cbn [app]; idle_list|destruct (q_is E); cbn [app]; no_conn]. }
  destruct (q_for E m) as [kind|] eqn:FM.
  - injection HD as <- <-. subst s1. cbn [put_obj p_map p_obj p_objs p_loop p_task p_tasks].
    apply inv_start; auto. congruence.
  - injection HD as <- <-. subst s1. unfold put_obj, put_loop. cbn [p_map p_obj p_objs p_loop p_task p_tasks].
    apply PUT; auto; [intros e H; apply receiving_idle in H; exact H|intros u v H; exact (receiving_conn _ _ _ _ H)].
Qed.

Lemma inv_fail s tr t j c : inv s tr -> p_task s t = Some j -> p_obj s (j_obj j) = Some c ->
  forall es, (forall e, In e es -> forall t', t' <> t -> about t' e = false) ->
  (forall u o, ~ In (OConnected u o) es) ->
  shape t (mkTask (j_obj j) (j_kind j) (j_num j) QDone) (k_uuid c) (life t (tr ++ es ++ [OFail t])) ->
  inv (fst (fail E s t j c)) (tr ++ es ++ snd (fail E s t j c)).
Proof.
  intros I HT HO es AB NC SH. unfold fail. cbn [fst snd].
  eapply inv_task; eauto.
  - intros e H t' N. apply in_app_iff in H as [H|[<-|H]].
    + apply (AB e H t' N).
    + cbn [about]. apply Nat.eqb_neq. congruence.
    + exact (receiving_idle _ _ _ H t').
  - intros u o H. apply in_app_iff in H as [H|[H|H]]; [exact (NC u o H)|discriminate H|exact (receiving_conn _ _ _ _ H)].
  - rewrite !life_app. rewrite !life_app in SH.
    replace (life t (OFail t :: receiving_err E (k_uuid c) (Some (j_obj j)))) with (life t [@OFail M X t]); [exact SH|].
    unfold life. cbn [filter]. f_equal. change (filter (about t) ?l) with (life t l).
    rewrite life_receiving. reflexivity.
Qed.

Lemma self_about_send t c u n p : about t (OSend c u n p : qev) = match c with ByTask t' => Nat.eqb t' t | ByLoop => false end.
Proof. destruct c; reflexivity. Qed.

Lemma said_life kind t u n bs a : said kind t u n bs a -> life t a = a /\
  (forall e, In e a -> forall t', t' <> t -> about t' e = false) /\ (forall v o, ~ In (OConnected v o) a).
Proof.
  intro H. destruct kind as [[|] r]; cbn [said] in H.
  - destruct H as (x & ops & _ & _ & ->). unfold life. cbn [filter about]. rewrite Nat.eqb_refl. split; [reflexivity|]. split.
    + intros e [<-|[<-|[]]] t' N; cbn [about]; apply Nat.eqb_neq; congruence.
    + intros v o [W|[W|[]]]; discriminate W.
  - destruct H as (_ & ->). unfold life. cbn [filter about]. rewrite Nat.eqb_refl. split; [reflexivity|]. split.
    + intros e [<-|[]] t' N; cbn [about]; apply Nat.eqb_neq; congruence.
    + intros v o [W|[]]; discriminate W.
Qed.

Lemma life_fail t : life t [@OFail M X t] = [OFail t].
Proof. unfold life. cbn [filter about]. rewrite Nat.eqb_refl. reflexivity. Qed.

Lemma inv_end s tr t r s' es : inv s tr -> fire E s (LEnd t r) = Some (s', es) -> inv s' (tr ++ es).
Proof.
  intros I F. cbn [fire] in F. destruct (p_loop s); [discriminate F|].
  destruct (p_task s t) as [j|] eqn:HT; [|discriminate F].
  destruct (j_stage j) eqn:ST; try discriminate F.
  destruct (p_obj s (j_obj j)) as [c|] eqn:HO; [|discriminate F].
  pose proof (task_shape _ _ _ _ _ I HT HO) as (h & m & HN & HF & SH). rewrite ST in SH. cbv zeta in SH.
  assert (FAIL : forall s2 es2, fail E s t j c = (s2, es2) -> inv s2 (tr ++ es2)).
  { intros s2 es2 Q. pose proof (inv_fail _ _ _ _ _ I HT HO []) as W. rewrite Q in W. cbn [fst snd app] in W.
    apply W; [intros e []|intros u o []|]. exists h, m. cbn [j_num j_kind j_obj j_stage].
    split; [exact HN|]. split; [exact HF|]. left. rewrite life_app, SH, life_fail. reflexivity. }
  assert (SAY : forall bs a, said (j_kind j) t (k_uuid c) (j_num j) bs a ->
     inv (put_task s t (mkTask (j_obj j) (j_kind j) (j_num j) (QSent bs))) (tr ++ a)).
  { intros bs a H. destruct (said_life _ _ _ _ _ _ H) as (L & A & B).
    eapply inv_task; eauto. exists h, m. cbn [j_num j_kind j_obj j_stage]. split; [exact HN|]. split; [exact HF|].
    exists a. split; [exact H|]. rewrite life_app, SH, L. reflexivity. }
  destruct r as [|x ops packs].
  - apply FAIL. congruence.
  - destruct (j_kind j) as [[|] r] eqn:KD.
    + destruct (many (q_req E r) && response_error E (q_req E r) (build E (q_req E r) x ops)) eqn:RE.
      { apply FAIL. congruence. }
      destruct packs; [|apply FAIL; congruence].
      injection F as <- <-. apply SAY. cbn [said]. exists x, ops. split; [reflexivity|]. split; [|reflexivity].
      intro Y. rewrite Y in RE. exact RE.
    + injection F as <- <-. apply SAY. cbn [said]. auto.
Qed.

Lemma inv_sent s tr t ok k s' es : inv s tr -> fire E s (LSent t ok k) = Some (s', es) -> inv s' (tr ++ es).
Proof.
  intros I F. cbn [fire] in F. destruct (p_loop s); [discriminate F|].
  destruct (p_task s t) as [j|] eqn:HT; [|discriminate F].
  destruct (j_stage j) as [|bs| |] eqn:ST; try discriminate F.
  destruct (p_obj s (j_obj j)) as [c|] eqn:HO; [|discriminate F].
  pose proof (task_shape _ _ _ _ _ I HT HO) as (h & m & HN & HF & SH). rewrite ST in SH. cbv zeta in SH.
  destruct SH as (a & SA & SH).
  assert (BA : forall e, In e (broadcast_all E (Some t) bs k) -> forall t', t' <> t -> about t' e = false).
  { intros e H t' N. apply in_broadcast in H as (us & x & u & _ & _ & ->). cbn [about]. apply Nat.eqb_neq. congruence. }
  destruct ok; cbn [negb] in F.
  - destruct (broken E bs k) eqn:BK.
    + destruct (fail E s t j c) as (s2, fs) eqn:Q. injection F as <- <-.
      pose proof (inv_fail _ _ _ _ _ I HT HO (broadcast_all E (Some t) bs k) BA (broadcast_conn _ _ _)) as W.
      rewrite Q in W. cbn [fst snd] in W. apply W.
      exists h, m. cbn [j_num j_kind j_obj j_stage]. split; [exact HN|]. split; [exact HF|]. right. exists bs, a.
      split; [exact SA|]. right. left. unfold broken in BK. destruct k as [n|]; [|discriminate BK].
      exists n. apply Nat.ltb_lt in BK. split; [exact BK|].
      rewrite life_app, SH, life_app, life_broadcast, life_fail. reflexivity.
    + injection F as <- <-. eapply inv_task; eauto; [apply broadcast_conn|].
      exists h, m. cbn [j_num j_kind j_obj j_stage]. split; [exact HN|]. split; [exact HF|].
      exists bs, a. split; [exact SA|]. rewrite life_app, SH, life_broadcast, broadcast_whole by exact BK. reflexivity.
  - assert (F' : fail E s t j c = (s', es)) by congruence. pose proof (inv_fail _ _ _ _ _ I HT HO []) as W. rewrite F' in W. cbn [fst snd app] in W.
    apply W; [intros e []|intros u o []|]. exists h, m. cbn [j_num j_kind j_obj j_stage].
    split; [exact HN|]. split; [exact HF|]. right. exists bs, a. split; [exact SA|]. left.
    rewrite life_app, SH, life_fail. reflexivity.
Qed.

Lemma inv_last s tr t ok s' es : inv s tr -> fire E s (LLast t ok) = Some (s', es) -> inv s' (tr ++ es).
Proof.
  intros I F. cbn [fire] in F. destruct (p_loop s); [discriminate F|].
  destruct (p_task s t) as [j|] eqn:HT; [|discriminate F].
  destruct (j_stage j) as [|bs| |] eqn:ST; try discriminate F.
  destruct (p_obj s (j_obj j)) as [c|] eqn:HO; [|discriminate F].
  pose proof (task_shape _ _ _ _ _ I HT HO) as (h & m & HN & HF & SH). rewrite ST in SH. cbv zeta in SH.
  destruct SH as (bs & a & SA & SH).
  assert (DA : forall e, In e [@ODeferred M X t] -> forall t', t' <> t -> about t' e = false).
  { intros e [<-|[]] t' N. cbn [about]. apply Nat.eqb_neq. congruence. }
  assert (DC : forall u o, ~ In (OConnected u o) [@ODeferred M X t]) by (intros u o [W|[]]; discriminate W).
  assert (LD : life t [@ODeferred M X t] = [ODeferred t]).
  { unfold life. cbn [filter about]. rewrite Nat.eqb_refl. reflexivity. }
  destruct ok.
  - injection F as <- <-. eapply inv_task; eauto. exists h, m. cbn [j_num j_kind j_obj j_stage].
    split; [exact HN|]. split; [exact HF|]. right. exists bs, a. split; [exact SA|]. right. right. left.
    rewrite life_app, SH, LD. cbn [app]. rewrite <- !app_assoc. reflexivity.
  - destruct (fail E s t j c) as (s2, fs) eqn:Q. injection F as <- <-.
    pose proof (inv_fail _ _ _ _ _ I HT HO [ODeferred t] DA DC) as W. rewrite Q in W. cbn [fst snd app] in W. apply W.
    exists h, m. cbn [j_num j_kind j_obj j_stage]. split; [exact HN|]. split; [exact HF|]. right. exists bs, a.
    split; [exact SA|]. right. right. right.
    change [@ODeferred M X t; OFail t] with ([@ODeferred M X t] ++ [OFail t]).
    rewrite life_app, SH, life_app, LD, life_fail. cbn [app]. rewrite <- !app_assoc. reflexivity.
Qed.

Lemma fire_inv s tr l s' es : inv s tr -> fire E s l = Some (s', es) -> inv s' (tr ++ es).
Proof.
  intros I F. destruct l.
  - cbn [fire] in F. destruct (p_loop s) eqn:L; [discriminate F|].
    destruct (p_map s u) eqn:MU; injection F as <- <-.
    { apply inv_same; [exact I|idle_list|no_conn]. }
    set (o := p_objs s). set (c := mkKons u false false false false (mkBuf [] [])).
    split; cbn [p_map p_obj p_objs p_loop p_task p_tasks].
    + intros v H. rewrite updn_other by lia. apply (i_fresh _ _ I). lia.
    + intros v w H. unfold updk in H. destruct (N.eqb_spec v u) as [->|N].
      * injection H as <-. rewrite updn_same. exists c. auto.
      * destruct (i_map _ _ I v w H) as (d & H1 & H2). exists d. split; [|exact H2].
        rewrite updn_other; [exact H1|]. intros ->. rewrite (i_fresh _ _ I o) in H1; [discriminate H1|apply le_n].
    + intros v d H. destruct (Nat.eq_dec v o) as [->|N].
      * rewrite updn_same in H. injection H as <-. apply in_app_iff. right. left. reflexivity.
      * rewrite updn_other in H by exact N. apply in_app_iff. left. apply (i_conn _ _ I _ _ H).
    + intros v w H. apply in_app_iff in H as [H|[H|[]]].
      * destruct (i_made _ _ I v w H) as (d & H1 & H2). exists d. split; [|exact H2].
        rewrite updn_other; [exact H1|]. intros ->. rewrite (i_fresh _ _ I o) in H1; [discriminate H1|apply le_n].
      * injection H as <- <-. rewrite updn_same. exists c. auto.
    + intros v d H HH. destruct (Nat.eq_dec v o) as [->|N].
      * rewrite updn_same in H. injection H as <-. discriminate HH.
      * rewrite updn_other in H by exact N. destruct (i_hash _ _ I v d H HH) as (h & m & A & B).
        exists h, m. split; [apply in_app_iff; auto|exact B].
    + intros v d H HH. destruct (Nat.eq_dec v o) as [->|N].
      * rewrite updn_same in H. injection H as <-. discriminate HH.
      * rewrite updn_other in H by exact N. destruct (i_key _ _ I v d H HH) as [A|(h & m & A & B)].
        -- left. apply in_app_iff. auto.
        -- right. exists h, m. split; [apply in_app_iff; auto|exact B].
    + intros v H. discriminate H.
    + intros t H. destruct (i_tfresh _ _ I t H) as (A & B). split; [exact A|]. rewrite life_app, B. reflexivity.
    + intros t H. destruct (i_task _ _ I t H) as (j & d & A & B & C). exists j, d. split; [exact A|]. split.
      * rewrite updn_other; [exact B|]. intros Q. rewrite (i_fresh _ _ I) in B; [discriminate B|rewrite Q; apply le_n].
      * rewrite life_app. cbn [life filter about]. rewrite app_nil_r. exact C.
  - cbn [fire] in F. destruct (p_map s u) eqn:MU; injection F as <- <-.
    + apply (inv_quiet s); auto; try idle_list; try no_conn.
      * intros v d H. cbn [p_obj]. eauto 8.
      * intros v w H. cbn [p_map] in H. unfold updk in H. destruct (v =? u); [discriminate H|exact H].
      * intros v H. apply (i_loop _ _ I v H).
    + apply inv_same; [exact I|idle_list|no_conn].
  - cbn [fire] in F. destruct (p_loop s) eqn:L; [discriminate F|].
    destruct (p_map s u) as [o|] eqn:MU.
    2:{ injection F as <- <-. apply inv_same; [exact I|intros e; apply receiving_idle|intros v w; apply receiving_conn]. }
    destruct (p_obj s o) as [c|] eqn:HO; [|discriminate F].
    destruct (k_disc c).
    { injection F as <- <-. apply inv_same; [exact I|intros e; apply receiving_idle|intros v w; apply receiving_conn]. }
    destruct (ts_chunk (q_get E) (q_sig E) fuel (k_buf c) data) as [[r b]|]; [|discriminate F].
    assert (PB : forall l es', (l = None \/ l = Some o) -> (forall e, In e es' -> idle_event e) -> (forall u v, ~ In (OConnected u v) es') ->
       inv (put_loop (put_obj s o (put_buf c b)) l) (tr ++ es')).
    { intros l es' Hl ID NC. apply (inv_put s tr _ o c (put_buf c b)); auto.
      intros v Hv. cbn [put_loop p_loop] in Hv. destruct Hl; [congruence|right; congruence]. }
    assert (SL : put_obj s o (put_buf c b) = put_loop (put_obj s o (put_buf c b)) None).
    { unfold put_loop, put_obj. cbn [p_map p_obj p_objs p_loop p_task p_tasks]. rewrite L. reflexivity. }
    destruct r as [[|n]|]; injection F as <- <-; try rewrite SL; apply PB; auto; try idle_list; no_conn.
  - apply (inv_next _ _ _ _ I F).
  - cbn [fire] in F. destruct (p_obj s o) as [c|] eqn:HO; [|discriminate F]. injection F as <- <-.
    apply (inv_put s tr _ o c (put_key c)); auto; try idle_list; try no_conn.
    intros _. right. left. left. reflexivity.
  - cbn [fire] in F. destruct (p_obj s o) as [c|] eqn:HO; [|discriminate F]. injection F as <- <-.
    apply (inv_put s tr _ o c (put_assigned c)); auto; try idle_list; no_conn.
  - cbn [fire] in F. destruct (p_obj s o) as [c|] eqn:HO; [|discriminate F]. injection F as <- <-.
    apply (inv_put s tr _ o c (put_disc c)); auto; try idle_list; no_conn.
  - apply (inv_end _ _ _ _ _ _ I F).
  - apply (inv_sent _ _ _ _ _ _ _ I F).
  - apply (inv_last _ _ _ _ _ _ I F).
  - cbn [fire] in F. destruct (p_loop s) eqn:L; [discriminate F|]. destruct r as [ops|].
    2:{ injection F as <- <-. apply inv_same; [exact I|idle_list|no_conn]. }
    destruct (lacks E _ _). { injection F as <- <-. apply inv_same; [exact I|idle_list|no_conn]. }
    injection F as <- <-. apply inv_same; [exact I| |].
    + intros x H. apply in_app_iff in H as [H|H].
      * apply in_broadcast in H as (us & y & v & _ & _ & ->). intro t. reflexivity.
      * destruct (broken E _ _); [destruct H as [<-|[]]; intro t; reflexivity|elim H].
    + intros v w H. apply in_app_iff in H as [H|H]; [exact (broadcast_conn _ _ _ _ _ H)|].
      destruct (broken E _ _); [destruct H as [H|[]]; discriminate H|elim H].
Qed.

Theorem qrun_inv ls s tr : qrun E ls s tr -> inv s tr.
Proof. induction 1 as [|ls s tr l s' es R I F]; [apply inv_init|apply (fire_inv _ _ _ _ _ I F)]. Qed.

End Proofs.
