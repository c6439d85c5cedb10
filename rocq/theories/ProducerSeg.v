(** The producer and the segmentation of received data. *)
From Coq Require Import List Arith NArith Bool Lia.
From Verif Require Import Bytes WireModel FrameModel FrameProofs ProducerModel ProducerProofs ProducerInv
  ProducerMore ProducerFrame.
Import ListNotations.
Open Scope N_scope.

(** ** Reading two chunks at once *)
Section Chunk.
Context {M : Type}.
Variable dm : N -> bytes -> res M err.
Variable sig : N.

Lemma skipn_app_le {A} n (l x : list A) : (n <= length l)%nat -> skipn n (l ++ x) = skipn n l ++ x.
Proof. intros H. rewrite skipn_app. replace (n - length l)%nat with O by lia. reflexivity. Qed.

Lemma firstn_app_le {A} n (l x : list A) : (n <= length l)%nat -> firstn n (l ++ x) = firstn n l.
Proof.
  intros H. rewrite firstn_app. replace (n - length l)%nat with O by lia. cbn. apply app_nil_r.
Qed.

Lemma chunk_loop_fuel : forall f f' st, (length (rb_buf st) < f)%nat -> (length (rb_buf st) < f')%nat ->
  chunk_loop dm sig f st = chunk_loop dm sig f' st.
Proof.
  induction f as [|f IH]; intros f' st H H'; [lia|]. destruct f' as [|f']; [lia|].
  cbn [chunk_loop]. destruct (has_header (rb_buf st)) eqn:Hh; cbn [negb]; auto.
  destruct (2 ^ 64 <=? h_len (get_header (rb_buf st)) + header_len); auto.
  destruct (blen (rb_buf st) <? h_len (get_header (rb_buf st)) + header_len); auto.
  destruct (negb (h_sig (get_header (rb_buf st)) =? sig)); auto.
  destruct (dm _ _); auto.
  set (rest := skipn (N.to_nat (h_len (get_header (rb_buf st)))) (skipn 26 (rb_buf st))) in *.
  assert (L : (length rest < length (rb_buf st))%nat).
  { unfold rest. rewrite !skipn_length. unfold has_header, header_len, blen in Hh.
    apply N.leb_le in Hh. lia. }
  clearbody rest. destruct rest as [|y rest]; auto.
  apply IH; cbn [rb_buf length] in *; lia.
Qed.

(** the loop over [b ++ x] first does what it does over [b] *)
Lemma chunk_loop_extend x : forall f b q b1 q1,
  (length b < f)%nat -> chunk_loop dm sig f (mkBuf b q) = (COk, mkBuf b1 q1) ->
  chunk_loop dm sig (S (length (b ++ x))) (mkBuf (b ++ x) q) =
  chunk_loop dm sig (S (length (b1 ++ x))) (mkBuf (b1 ++ x) q1).
Proof.
  induction f as [|f IH]; intros b q b1 q1 L H; [lia|].
  cbn [chunk_loop rb_buf rb_queue] in H.
  destruct (has_header b) eqn:Hh; cbn [negb] in H; [|injection H as <- <-; reflexivity].
  assert (Hb : 26 <= blen b) by (apply N.leb_le; exact Hh).
  destruct (2 ^ 64 <=? h_len (get_header b) + header_len) eqn:E1; [discriminate|].
  destruct (blen b <? h_len (get_header b) + header_len) eqn:E2; [injection H as <- <-; reflexivity|].
  destruct (negb (h_sig (get_header b) =? sig)) eqn:E3; [discriminate|].
  destruct (dm (h_id (get_header b)) (firstn (N.to_nat (h_len (get_header b))) (skipn 26 b))) as [m| |] eqn:Ed;
    try discriminate.
  apply N.ltb_ge in E2. unfold header_len in E2.
  assert (Lb : (N.to_nat (h_len (get_header b)) + 26 <= length b)%nat) by (unfold blen in E2; lia).
  assert (S1 : skipn 26 (b ++ x) = skipn 26 b ++ x) by (apply skipn_app_le; lia).
  assert (Hl : (N.to_nat (h_len (get_header b)) <= length (skipn 26 b))%nat) by (rewrite skipn_length; lia).
  set (rest := skipn (N.to_nat (h_len (get_header b))) (skipn 26 b)) in *.
  assert (Lr : (length rest < length b)%nat) by (unfold rest; rewrite !skipn_length; lia).
  assert (Step : chunk_loop dm sig (S (length (b ++ x))) (mkBuf (b ++ x) q) =
    match rest ++ x with
    | [] => (COk, mkBuf (rest ++ x) (q ++ [(get_header b, m)]))
    | _ => chunk_loop dm sig (length (b ++ x)) (mkBuf (rest ++ x) (q ++ [(get_header b, m)]))
    end).
  { cbn [chunk_loop rb_buf rb_queue]. rewrite get_header_app by exact Hb.
    unfold has_header, header_len in *.
    replace (26 <=? blen (b ++ x)) with true
      by (symmetry; apply N.leb_le; rewrite blen_app; lia). cbn [negb]. rewrite E1.
    replace (blen (b ++ x) <? h_len (get_header b) + 26) with false
      by (symmetry; apply N.ltb_ge; rewrite blen_app; lia).
    rewrite E3, S1, firstn_app_le, Ed, skipn_app_le by exact Hl. reflexivity. }
  rewrite Step. clear Step.
  assert (Hx : match rest ++ x with
    | [] => (COk, mkBuf (rest ++ x) (q ++ [(get_header b, m)]))
    | _ => chunk_loop dm sig (length (b ++ x)) (mkBuf (rest ++ x) (q ++ [(get_header b, m)]))
    end = chunk_loop dm sig (S (length (rest ++ x))) (mkBuf (rest ++ x) (q ++ [(get_header b, m)]))).
  { destruct (rest ++ x) as [|y z] eqn:Er; [reflexivity|].
    apply chunk_loop_fuel; cbn [rb_buf]; [|lia]. rewrite <- Er, !app_length. lia. }
  rewrite Hx. clear Hx.
  clearbody rest. destruct rest as [|y r'].
  - injection H as <- <-. reflexivity.
  - eapply IH; [|exact H]. lia.
Qed.

Lemma chunk_merge st a b st1 :
  chunk dm sig st a = (COk, st1) -> chunk dm sig st (a ++ b) = chunk dm sig st1 b.
Proof.
  intros H. unfold chunk in *. rewrite app_assoc. destruct st1 as [b1 q1].
  rewrite (chunk_loop_extend b _ _ _ b1 q1 (Nat.lt_succ_diag_r _) H). reflexivity.
Qed.

(** the converse: nothing goes wrong in a prefix *)
Lemma chunk_loop_prefix x : forall f b q o st,
  (length b < f)%nat ->
  chunk_loop dm sig f (mkBuf b q) = (o, st) -> o <> COk ->
  fst (chunk_loop dm sig (S (length (b ++ x))) (mkBuf (b ++ x) q)) <> COk.
Proof.
  induction f as [|f IH]; intros b q o st L H Ho; [lia|].
  cbn [chunk_loop rb_buf rb_queue] in H.
  destruct (has_header b) eqn:Hh; cbn [negb] in H; [|injection H as <- <-; congruence].
  assert (Hb : 26 <= blen b) by (apply N.leb_le; exact Hh).
  cbn [chunk_loop rb_buf rb_queue]. rewrite get_header_app by exact Hb.
  replace (has_header (b ++ x)) with true
    by (symmetry; unfold has_header, header_len; apply N.leb_le; rewrite blen_app; lia). cbn [negb].
  destruct (2 ^ 64 <=? h_len (get_header b) + header_len) eqn:E1; [cbn; congruence|].
  destruct (blen b <? h_len (get_header b) + header_len) eqn:E2; [injection H as <- <-; congruence|].
  apply N.ltb_ge in E2.
  replace (blen (b ++ x) <? h_len (get_header b) + header_len) with false
    by (symmetry; apply N.ltb_ge; rewrite blen_app; lia).
  destruct (negb (h_sig (get_header b) =? sig)) eqn:E3; [cbn; congruence|].
  unfold header_len in E2.
  assert (Lb : (N.to_nat (h_len (get_header b)) + 26 <= length b)%nat) by (unfold blen in E2; lia).
  assert (S1 : skipn 26 (b ++ x) = skipn 26 b ++ x) by (apply skipn_app_le; lia).
  assert (Hl : (N.to_nat (h_len (get_header b)) <= length (skipn 26 b))%nat) by (rewrite skipn_length; lia).
  rewrite S1, firstn_app_le, skipn_app_le by exact Hl.
  destruct (dm (h_id (get_header b)) (firstn (N.to_nat (h_len (get_header b))) (skipn 26 b))) as [m| |] eqn:Ed;
    [|cbn; congruence|cbn; congruence].
  set (rest := skipn (N.to_nat (h_len (get_header b))) (skipn 26 b)) in *.
  assert (Lr : (length rest < length b)%nat) by (unfold rest; rewrite !skipn_length; lia).
  clearbody rest. destruct rest as [|y r']; [injection H as <- <-; congruence|].
  cbn [app]. change (y :: r' ++ x) with ((y :: r') ++ x).
  rewrite (chunk_loop_fuel (length (b ++ x)) (S (length ((y :: r') ++ x)))).
  - eapply IH; [|exact H|exact Ho]. lia.
  - cbn [rb_buf]. rewrite !app_length. lia.
  - cbn [rb_buf]. lia.
Qed.

Lemma chunk_prefix_ok st a b st2 :
  chunk dm sig st (a ++ b) = (COk, st2) -> exists st1, chunk dm sig st a = (COk, st1).
Proof.
  intros H. destruct (chunk dm sig st a) as [o st1] eqn:Ea.
  destruct o; eauto; exfalso; unfold chunk in *;
    refine (chunk_loop_prefix b _ _ _ _ _ (Nat.lt_succ_diag_r _) Ea _ _); try congruence;
    rewrite <- app_assoc, H; reflexivity.
Qed.

(** messages are appended to the queue *)
Lemma chunk_loop_queue : forall f b q o b1 q1,
  chunk_loop dm sig f (mkBuf b q) = (o, mkBuf b1 q1) ->
  exists d, q1 = q ++ d /\ forall p, chunk_loop dm sig f (mkBuf b p) = (o, mkBuf b1 (p ++ d)).
Proof.
  induction f as [|f IH]; intros b q o b1 q1 H; cbn [chunk_loop rb_buf rb_queue] in *.
  { injection H as <- <- <-. exists []. split; [rewrite app_nil_r; auto|]. intros p. rewrite app_nil_r. auto. }
  assert (Z : forall (o' : outcome) (x y : bytes), (o', mkBuf x q) = (o, mkBuf b1 q1) ->
    exists d, q1 = q ++ d /\ forall p, (o', mkBuf x p) = (o, mkBuf b1 (p ++ d))).
  { intros o' x y [= <- <- <-]. exists []. split; [rewrite app_nil_r; auto|].
    intros p. rewrite app_nil_r. auto. }
  destruct (negb (has_header b)); [eapply Z; eauto|].
  destruct (2 ^ 64 <=? h_len (get_header b) + header_len); [eapply Z; eauto|].
  destruct (blen b <? h_len (get_header b) + header_len); [eapply Z; eauto|].
  destruct (negb (h_sig (get_header b) =? sig)); [eapply Z; eauto|].
  destruct (dm _ _) as [m| |]; [|eapply Z; eauto|eapply Z; eauto].
  destruct (skipn (N.to_nat (h_len (get_header b))) (skipn 26 b)) as [|y rest].
  - injection H as <- <- <-. eexists. split; [reflexivity|]. reflexivity.
  - apply IH in H. destruct H as (d & -> & H). eexists. rewrite <- app_assoc. split; [reflexivity|].
    intros p. rewrite H, <- app_assoc. reflexivity.
Qed.

Lemma chunk_queue b q x o b1 q1 : chunk dm sig (mkBuf b q) x = (o, mkBuf b1 q1) ->
  exists d, q1 = q ++ d /\ forall p, chunk dm sig (mkBuf b p) x = (o, mkBuf b1 (p ++ d)).
Proof. unfold chunk. cbn [rb_buf rb_queue]. apply chunk_loop_queue. Qed.

End Chunk.

(** ** The stored bytes do not influence the handling of messages *)
Section Seg.
Variable E : env.

Notation out := (out E).
Notation st := (st E).
Notation P := (P E).
Notation X := (e_user E).

Section Sim.
Variable u : uuid.
Variable b : rbuf (e_msg E).

Fixpoint modb (t : table E) : table E :=
  match t with
  | [] => []
  | (v, c) :: t => if u =? v then (v, set_buf E b c) :: t else (v, c) :: modb t
  end.
Definition setb (s : st) : st := mkSt E (s_w E s) (modb (s_tab E s)) (s_conf E s).

Lemma find_modb t : find E u (modb t) = option_map (set_buf E b) (find E u t).
Proof.
  induction t as [|[v c] t IH]; cbn [modb find]; auto.
  destruct (u =? v) eqn:Ev; cbn [find]; rewrite Ev; auto.
Qed.

Lemma idents_modb t : idents E (modb t) = idents E t.
Proof.
  induction t as [|[v c] t IH]; cbn [modb]; auto.
  destruct (u =? v); unfold idents in *; cbn [map]; [reflexivity|rewrite IH; reflexivity].
Qed.

Lemma put_modb c t : put E u (set_buf E b c) (modb t) = modb (put E u c t).
Proof.
  induction t as [|[v d] t IH]; cbn [modb put]; auto.
  destruct (u =? v) eqn:Ev; cbn [modb put]; rewrite Ev; auto. rewrite IH. auto.
Qed.

Definition rres {A} (R : A -> A -> Prop) (r r' : pres A) : Prop :=
  match r, r' with
  | PGo a, PGo a' => R a a'
  | PStop e, PStop e' => e = e'
  | PPanic, PPanic => True
  | _, _ => False
  end.

Definition sim {A} (R : A -> A -> Prop) (m m' : P A) : Prop :=
  forall s, fst (m' (setb s)) = fst (m s) /\ fst (snd (m' (setb s))) = setb (fst (snd (m s))) /\
    rres R (snd (snd (m s))) (snd (snd (m' (setb s)))).

Lemma sim_bind {A B} (R : A -> A -> Prop) (S : B -> B -> Prop) m m' (f f' : A -> P B) :
  sim R m m' -> (forall a a', R a a' -> sim S (f a) (f' a')) -> sim S (bindp E m f) (bindp E m' f').
Proof.
  intros Hm Hf s. unfold bindp. specialize (Hm s).
  destruct (m s) as [t [s1 r]], (m' (setb s)) as [t' [s1' r']]. cbn [fst snd] in Hm.
  destruct Hm as (-> & -> & Hr).
  destruct r as [a|e|], r' as [a'|e'|]; cbn [rres] in Hr; try tauto.
  - specialize (Hf a a' Hr s1). destruct (f a s1) as [t2 [s2 r2]], (f' a' (setb s1)) as [t2' [s2' r2']].
    cbn [fst snd] in *. destruct Hf as (-> & -> & Hr2). auto.
Qed.

Lemma sim_eq {A B} m m' (f f' : A -> P B) S :
  sim eq m m' -> (forall a, sim S (f a) (f' a)) -> sim S (bindp E m f) (bindp E m' f').
Proof. intros H1 H2. eapply sim_bind; [exact H1|]. intros a a' <-. apply H2. Qed.

Lemma sim_ret {A} (a : A) : sim eq (ret E a) (ret E a).
Proof. intros s. cbn. auto. Qed.
Lemma sim_stop {A} e : @sim A eq (stop E e) (stop E e).
Proof. intros s. cbn. auto. Qed.
Lemma sim_emit o : sim eq (emit E o) (emit E o).
Proof. intros s. cbn. auto. Qed.
Lemma sim_world {A} (f : _ -> _ * A) : sim eq (world E f) (world E f).
Proof. intros s. unfold world. cbn [setb s_w]. destruct (f (s_w E s)). cbn. auto. Qed.
Lemma sim_get_tab : sim (fun t t' => t' = modb t) (get_tab E) (get_tab E).
Proof. intros s. cbn. auto. Qed.
Lemma sim_look : sim (fun c c' => c' = option_map (set_buf E b) c) (look E u) (look E u).
Proof. intros s. cbn. rewrite find_modb. auto. Qed.
Lemma sim_upd f : (forall c, f (set_buf E b c) = set_buf E b (f c)) -> sim eq (upd E u f) (upd E u f).
Proof.
  intros Hf s. unfold upd. cbn [setb s_tab]. rewrite find_modb.
  destruct (find E u (s_tab E s)) as [c|]; cbn [option_map fst snd rres]; auto.
  split; auto. split; auto. unfold setb. cbn [s_w s_tab s_conf]. rewrite Hf, put_modb. auto.
Qed.

Lemma sim_try_pack v seq p : sim eq (try_pack E v seq p) (try_pack E v seq p).
Proof.
  apply sim_eq; [apply sim_world|]. intros [|]; [apply sim_ret|].
  apply sim_eq; [apply sim_emit|]. intros. apply sim_ret.
Qed.
Lemma sim_send v seq p : sim eq (send E v seq p) (send E v seq p).
Proof.
  apply sim_eq; [apply sim_world|]. intros ok. apply sim_eq; [apply sim_emit|]. intros. apply sim_ret.
Qed.
Lemma sim_pack_send v seq p : sim eq (pack_send E v seq p) (pack_send E v seq p).
Proof. apply sim_eq; [apply sim_try_pack|]. intros [|]; auto using sim_send, sim_ret. Qed.
Lemma sim_broadcast us x : sim eq (broadcast E us x) (broadcast E us x).
Proof.
  induction us as [|v us IH]; cbn [broadcast]; [apply sim_ret|].
  apply sim_eq; [apply sim_send|]. intros _. exact IH.
Qed.
Lemma sim_broadcast_all l : sim eq (broadcast_all E l) (broadcast_all E l).
Proof.
  induction l as [|[us x] l IH]; cbn [broadcast_all]; [apply sim_ret|].
  apply sim_eq; [apply sim_broadcast|]. intros _. exact IH.
Qed.
Lemma sim_pack_all v l : sim eq (pack_all E v l) (pack_all E v l).
Proof.
  induction l as [|[us x] l IH]; cbn [pack_all]; [apply sim_ret|].
  apply sim_eq; [apply sim_try_pack|]. intros [|]; auto using sim_ret.
Qed.
Lemma sim_deferred : sim eq (deferred E) (deferred E).
Proof. apply sim_eq; [apply sim_world|]. intros. apply sim_emit. Qed.
Lemma sim_emit_error e v i : sim eq (emit_error E e v i) (emit_error E e v i).
Proof.
  apply sim_eq; [apply sim_world|]. intros ok. apply sim_eq; [apply sim_emit|].
  intros. destruct ok; auto using sim_ret, sim_stop.
Qed.
Lemma sim_disconnect : sim eq (disconnect E u) (disconnect E u).
Proof.
  eapply sim_bind; [apply sim_look|]. intros c c' ->. destruct c as [c|]; cbn [option_map]; [|apply sim_ret].
  cbn [set_buf c_disc]. destruct (c_disc E c); [apply sim_ret|].
  apply sim_eq; [apply sim_upd; reflexivity|]. intros _.
  apply sim_eq; [apply sim_world|]. intros ok. apply sim_eq; [apply sim_emit|].
  intros _. destruct ok; auto using sim_ret, sim_stop.
Qed.
Lemma sim_ident_at : sim eq (ident_at E u) (ident_at E u).
Proof.
  eapply sim_bind; [apply sim_look|]. intros c c' ->. destruct c; cbn [option_map]; apply sim_ret.
Qed.
Lemma sim_ident_err e : sim eq (bindp E (ident_at E u) (fun i => emit_error E e (Some u) i))
                              (bindp E (ident_at E u) (fun i => emit_error E e (Some u) i)).
Proof. apply sim_eq; [apply sim_ident_at|]. intros i. apply sim_emit_error. Qed.
Lemma sim_expel e : sim eq (expel E u e) (expel E u e).
Proof. apply sim_eq; [apply sim_disconnect|]. intros _. apply sim_ident_err. Qed.
Lemma sim_responsing : sim eq (responsing_err E u) (responsing_err E u).
Proof.
  apply sim_eq; [destruct (e_cs E); auto using sim_ret, sim_disconnect|]. intros _.
  destruct (e_cs E); auto using sim_ret, sim_ident_err.
Qed.
Lemma sim_not_assigned : sim eq (not_assigned E u) (not_assigned E u).
Proof.
  apply sim_eq; [destruct (e_is E); auto using sim_ret, sim_disconnect|]. intros _.
  destruct (e_is E); auto using sim_ret, sim_ident_err.
Qed.
Lemma sim_process_request r i seq m : sim eq (process_request E u r i seq m) (process_request E u r i seq m).
Proof.
  eapply sim_bind; [apply sim_get_tab|]. intros t t' ->. rewrite idents_modb.
  apply sim_eq; [apply sim_world|]. intros res.
  apply sim_eq; [apply sim_emit|]. intros _.
  apply sim_eq.
  { destruct res as [x|n x bs]; [apply sim_ret|].
    destruct (Nat.ltb 1 (length (e_requests E r))); [|apply sim_ret].
    apply sim_eq; [apply sim_pack_all|]. intros ok. apply sim_ret. }
  intros [[x l]|]; [|apply sim_ret].
  apply sim_eq; [apply sim_pack_send|]. intros [|]; [|apply sim_ret].
  apply sim_eq; [apply sim_broadcast_all|]. intros _. apply sim_eq; [apply sim_deferred|]. intros. apply sim_ret.
Qed.
Lemma sim_process_beacon r i seq m : sim eq (process_beacon E u r i seq m) (process_beacon E u r i seq m).
Proof.
  eapply sim_bind; [apply sim_get_tab|]. intros t t' ->. rewrite idents_modb.
  apply sim_eq; [apply sim_world|]. intros res.
  apply sim_eq; [apply sim_emit|]. intros _. destruct res; [|apply sim_ret].
  apply sim_eq; [apply sim_pack_send|]. intros [|]; [|apply sim_ret].
  apply sim_eq; [apply sim_deferred|]. intros. apply sim_ret.
Qed.
Lemma sim_dispatch c h m : sim eq (dispatch E u c h m) (dispatch E u (set_buf E b c) h m).
Proof.
  unfold dispatch. destruct (e_request E m).
  - apply sim_eq; [apply sim_process_request|]. intros [|]; auto using sim_ret, sim_responsing.
  - destruct (e_beacon E m); [|apply sim_ret].
    apply sim_eq; [apply sim_process_beacon|]. intros [|]; [apply sim_ret|apply sim_emit_error].
Qed.
Lemma sim_handle asg hk h m c : sim eq (handle E u asg hk h m c) (handle E u asg hk h m (set_buf E b c)).
Proof.
  unfold handle. cbn [set_buf c_hash].
  match goal with |- sim eq (match e_self E m with Some k => if _ then ?x else _ | None => _ end)
    (match e_self E m with Some k' => if _ then ?y else _ | None => _ end) => assert (O : sim eq x y) end.
  { destruct (e_hash E m) as [pw|].
    - apply sim_eq; [destruct (hash_valid E pw); [apply sim_upd; reflexivity|apply sim_ret]|]. intros _.
      apply sim_eq; [apply sim_pack_send|]. intros ok.
      apply sim_eq; [destruct ok; auto using sim_ret, sim_responsing|]. intros _.
      destruct (hash_valid E pw); auto using sim_ret, sim_expel.
    - destruct (negb (c_hash E c)); [apply sim_expel|]. destruct (negb hk); [apply sim_expel|].
      destruct (negb asg && _); [apply sim_not_assigned|apply sim_dispatch]. }
  destruct (e_self E m); [|exact O]. destruct (c_hash E c); [exact O|].
  apply sim_eq; [apply sim_upd|].
  { intros d. unfold set_key, set_buf. cbn. reflexivity. }
  intros _. apply sim_eq; [apply sim_pack_send|]. intros [|]; auto using sim_ret, sim_responsing.
Qed.
Lemma sim_loop asg hk ms : sim eq (loop E u asg hk ms) (loop E u asg hk ms).
Proof.
  induction ms as [|[h m] ms IH]; cbn [loop]; [apply sim_ret|].
  eapply sim_bind; [apply sim_look|]. intros c c' ->. destruct c as [c|]; cbn [option_map]; [|apply sim_ret].
  apply sim_eq; [apply sim_emit|]. intros _.
  apply sim_eq; [apply sim_handle|]. intros _. exact IH.
Qed.

End Sim.

(** ** What the handling of messages keeps *)
Section Keep.
Variable u : uuid.

Definition kept (c c' : consumer E) : Prop :=
  c_buf E c' = c_buf E c /\ c_assigned E c' = c_assigned E c /\ c_conf E c' = c_conf E c /\
  (c_key E c <> None -> c_key E c' <> None) /\ (c_disc E c = true -> c_disc E c' = true).

Lemma kept_refl c : kept c c.
Proof. unfold kept. auto 6. Qed.
Lemma kept_trans a b c : kept a b -> kept b c -> kept a c.
Proof. unfold kept. intros (A1 & A2 & A3 & A4 & A5) (B1 & B2 & B3 & B4 & B5).
  split; [congruence|]. split; [congruence|]. split; [congruence|]. auto. Qed.

Definition keeps {A} (m : P A) : Prop :=
  forall s c, find E u (s_tab E s) = Some c ->
    wp E m s (fun _ s' _ => exists c', find E u (s_tab E s') = Some c' /\ kept c c').

Lemma keeps_bind {A B} (m : P A) (f : A -> P B) : keeps m -> (forall a, keeps (f a)) -> keeps (bindp E m f).
Proof.
  intros Hm Hf s c Fc. apply wp_bind. eapply wp_mono; [apply Hm; exact Fc|]. cbv beta.
  intros t s' r (c' & Fc' & K1). destruct r as [a|e|]; eauto.
  eapply wp_mono; [apply Hf; exact Fc'|]. cbv beta. intros _ s2 _ (c2 & Fc2 & K2).
  exists c2. split; auto. eapply kept_trans; eauto.
Qed.

Lemma keeps_calm {A} (m : P A) : calm E m -> keeps m.
Proof.
  intros H s c Fc. eapply wp_mono; [apply H|]. intros t s' r (_ & H1 & _). rewrite H1.
  exists c. auto using kept_refl.
Qed.
Lemma keeps_ret {A} (a : A) : keeps (ret E a).
Proof. apply keeps_calm, calm_ret. Qed.
Lemma keeps_emit o : keeps (emit E o).
Proof. intros s c Fc. unfold wp, emit. cbn. eauto using kept_refl. Qed.
Lemma keeps_upd f : (forall c, kept c (f c)) -> keeps (upd E u f).
Proof.
  intros Hf s c Fc. unfold wp, upd. rewrite Fc. cbn [fst snd s_tab]. exists (f c).
  split; auto. eapply find_put_same; eauto.
Qed.
Lemma keeps_send v seq p : keeps (send E v seq p).
Proof.
  apply keeps_bind; [apply keeps_calm, calm_world|]. intros ok.
  apply keeps_bind; [apply keeps_emit|]. intros. apply keeps_ret.
Qed.
Lemma keeps_pack_send v seq p : keeps (pack_send E v seq p).
Proof. apply keeps_bind; [apply keeps_calm, calm_try_pack|]. intros [|]; auto using keeps_send, keeps_ret. Qed.
Lemma keeps_disconnect : keeps (disconnect E u).
Proof.
  apply keeps_bind; [apply keeps_calm, calm_look|]. intros [c|]; [|apply keeps_ret].
  destruct (c_disc E c); [apply keeps_ret|].
  apply keeps_bind; [apply keeps_upd; intros d; unfold kept; cbn; auto 6|]. intros _.
  apply keeps_bind; [apply keeps_calm, calm_world|]. intros ok.
  apply keeps_bind; [apply keeps_emit|]. intros _.
  destruct ok; [apply keeps_ret|apply keeps_calm, calm_stop].
Qed.
Lemma keeps_ident_err e : keeps (bindp E (ident_at E u) (fun i => emit_error E e (Some u) i)).
Proof. apply keeps_bind; [apply keeps_calm, calm_ident_at|]. intros i. apply keeps_calm, calm_emit_error. Qed.
Lemma keeps_expel e : keeps (expel E u e).
Proof. apply keeps_bind; [apply keeps_disconnect|]. intros _. apply keeps_ident_err. Qed.
Lemma keeps_responsing : keeps (responsing_err E u).
Proof.
  apply keeps_bind; [destruct (e_cs E); auto using keeps_ret, keeps_disconnect|]. intros _.
  destruct (e_cs E); auto using keeps_ret, keeps_ident_err.
Qed.
Lemma keeps_not_assigned : keeps (not_assigned E u).
Proof.
  apply keeps_bind; [destruct (e_is E); auto using keeps_ret, keeps_disconnect|]. intros _.
  destruct (e_is E); auto using keeps_ret, keeps_ident_err.
Qed.
Lemma keeps_dispatch c h m : keeps (dispatch E u c h m).
Proof.
  unfold dispatch. destruct (e_request E m) as [r|].
  - apply keeps_bind.
    + apply keeps_bind; [apply keeps_calm, calm_get_tab|]. intros t.
      apply keeps_bind; [apply keeps_calm, calm_world|]. intros res.
      apply keeps_bind; [apply keeps_emit|]. intros _.
      apply keeps_bind.
      { apply keeps_calm. destruct res as [x|n x bs]; [apply calm_ret|].
        destruct (Nat.ltb 1 (length (e_requests E r))); [|apply calm_ret].
        apply calm_bind; [apply calm_pack_all|]. intros ok. apply calm_ret. }
      intros [[x l]|]; [|apply keeps_ret].
      apply keeps_bind; [apply keeps_pack_send|]. intros [|]; [|apply keeps_ret].
      apply keeps_calm. apply calm_bind; [apply calm_broadcast_all|]. intros _.
      apply calm_bind; [apply calm_deferred|]. intros _. apply calm_ret.
    + intros [|]; auto using keeps_ret, keeps_responsing.
  - destruct (e_beacon E m); [|apply keeps_ret].
    apply keeps_bind.
    + apply keeps_bind; [apply keeps_calm, calm_get_tab|]. intros t.
      apply keeps_bind; [apply keeps_calm, calm_world|]. intros res.
      apply keeps_bind; [apply keeps_emit|]. intros _. destruct res; [|apply keeps_ret].
      apply keeps_bind; [apply keeps_pack_send|]. intros [|]; [|apply keeps_ret].
      apply keeps_calm. apply calm_bind; [apply calm_deferred|]. intros _. apply calm_ret.
    + intros [|]; [apply keeps_ret|apply keeps_calm, calm_emit_error].
Qed.
Lemma keeps_handle asg hk h m c : keeps (handle E u asg hk h m c).
Proof.
  unfold handle.
  match goal with |- keeps (match e_self E m with Some k => if _ then ?x else _ | None => _ end) =>
    assert (O : keeps x) end.
  { destruct (e_hash E m) as [pw|].
    - apply keeps_bind.
      { destruct (hash_valid E pw); [apply keeps_upd; intros d; unfold kept; cbn; auto 6|apply keeps_ret]. }
      intros _. apply keeps_bind; [apply keeps_pack_send|]. intros ok.
      apply keeps_bind; [destruct ok; auto using keeps_ret, keeps_responsing|]. intros _.
      destruct (hash_valid E pw); auto using keeps_ret, keeps_expel.
    - destruct (negb (c_hash E c)); [apply keeps_expel|]. destruct (negb hk); [apply keeps_expel|].
      destruct (negb asg && _); [apply keeps_not_assigned|apply keeps_dispatch]. }
  destruct (e_self E m); [|exact O]. destruct (c_hash E c); [exact O|].
  apply keeps_bind.
  { apply keeps_upd. intros d. unfold kept. cbn. split; auto. split; auto. split; auto. split; auto.
    discriminate. }
  intros _. apply keeps_bind; [apply keeps_pack_send|]. intros [|]; auto using keeps_ret, keeps_responsing.
Qed.
Lemma keeps_loop asg hk ms : keeps (loop E u asg hk ms).
Proof.
  induction ms as [|[h m] ms IH]; cbn [loop]; [apply keeps_ret|].
  apply keeps_bind; [apply keeps_calm, calm_look|]. intros [c|]; [|apply keeps_ret].
  apply keeps_bind; [apply keeps_emit|]. intros _.
  apply keeps_bind; [apply keeps_handle|]. intros _. exact IH.
Qed.

End Keep.

Lemma bind_ret_l {A B} (a : A) (f : A -> P B) s : bindp E (ret E a) f s = f a s.
Proof. unfold bindp, ret. destruct (f a s). reflexivity. Qed.

Lemma bind_ext {A B} (m : P A) (f g : A -> P B) s :
  (forall a s, f a s = g a s) -> bindp E m f s = bindp E m g s.
Proof. intros H. unfold bindp. destruct (m s) as [t [s1 [a|e|]]]; auto. rewrite H. auto. Qed.

Lemma bind_look {B} u (f : option (consumer E) -> P B) s :
  bindp E (look E u) f s = f (find E u (s_tab E s)) s.
Proof. unfold bindp, look. destruct (f _ s). reflexivity. Qed.

Lemma bind_at {A B} (m : P A) (f g : A -> P B) s :
  (forall t s1 a, m s = (t, (s1, PGo a)) -> f a s1 = g a s1) -> bindp E m f s = bindp E m g s.
Proof.
  intros H. unfold bindp. destruct (m s) as [t [s1 [a|e|]]]; auto. rewrite (H t s1 a eq_refl). auto.
Qed.

Lemma loop_app u asg hk ms ns s : find E u (s_tab E s) <> None ->
  loop E u asg hk (ms ++ ns) s = bindp E (loop E u asg hk ms) (fun _ => loop E u asg hk ns) s.
Proof.
  revert s. induction ms as [|[h m] ms IH]; intros s Hf; cbn [app loop].
  - rewrite bind_ret_l. reflexivity.
  - rewrite bind_assoc, !bind_look.
    destruct (find E u (s_tab E s)) as [c|] eqn:Fc; [|congruence]. clear Hf.
    rewrite bind_assoc. apply bind_at. intros t s1 [] He.
    assert (s1 = s) by (unfold emit in He; congruence). subst s1.
    rewrite bind_assoc. apply bind_at. intros t1 s1 [] Hh. apply IH.
    pose proof (keeps_handle u asg hk h m c s c Fc) as K. unfold wp in K. rewrite Hh in K.
    destruct K as (c1 & F1 & _). cbn [fst snd] in F1. congruence.
Qed.

Lemma put_modb_eq u b c t : find E u t = Some c -> put E u (set_buf E b c) t = modb u b t.
Proof.
  induction t as [|[v d] t IH]; cbn [find put modb]; [discriminate|].
  destruct (u =? v); [intros [= ->]; reflexivity|]. intros H. rewrite IH; auto.
Qed.

Lemma modb_modb u b b' t : modb u b (modb u b' t) = modb u b t.
Proof.
  induction t as [|[v d] t IH]; cbn [modb]; auto.
  destruct (u =? v) eqn:Ev; cbn [modb]; rewrite Ev; auto. rewrite IH. auto.
Qed.

Lemma setb_setb u b b' s : setb u b (setb u b' s) = setb u b s.
Proof. unfold setb. cbn [s_w s_tab s_conf]. rewrite modb_modb. reflexivity. Qed.

(** handling of data in a state where the consumer is served *)
Lemma received_eq u data s c b :
  find E u (s_tab E s) = Some c -> c_conf E c = true -> c_disc E c = false ->
  chunk (e_get E) (e_sig E) (c_buf E c) data = (COk, b) ->
  process_received_data E u data s =
  loop E u (is_assigned E c) (has_key E c) (rb_queue b) (setb u (mkBuf (rb_buf b) []) s).
Proof.
  intros Fc Hc Hd Hb. unfold process_received_data. unfold bindp at 1. unfold look. rewrite Fc, Hc, Hd. cbn [negb].
  rewrite Hb. unfold bindp at 1. unfold upd. rewrite Fc. rewrite put_modb_eq by auto.
  change (mkSt E (s_w E s) (modb u (mkBuf (rb_buf b) []) (s_tab E s)) (s_conf E s))
    with (setb u (mkBuf (rb_buf b) []) s).
  destruct (loop E u (is_assigned E c) (has_key E c) (rb_queue b) (setb u (mkBuf (rb_buf b) []) s)).
  reflexivity.
Qed.

Lemma received_two u a b s c t s' c' st2 :
  find E u (s_tab E s) = Some c -> c_conf E c = true -> c_disc E c = false -> c_key E c <> None ->
  chunk (e_get E) (e_sig E) (c_buf E c) (a ++ b) = (COk, st2) ->
  process_received_data E u (a ++ b) s = (t, (s', PGo tt)) ->
  find E u (s_tab E s') = Some c' -> c_disc E c' = false ->
  exists t1 s1 c1 t2 st3, process_received_data E u a s = (t1, (s1, PGo tt)) /\
    find E u (s_tab E s1) = Some c1 /\ c_conf E c1 = true /\ c_disc E c1 = false /\ c_key E c1 <> None /\
    chunk (e_get E) (e_sig E) (c_buf E c1) b = (COk, st3) /\
    process_received_data E u b s1 = (t2, (s', PGo tt)) /\ t = t1 ++ t2.
Proof.
  intros Fc Hc Hd Hk Hch Hp Fc' Hd'.
  destruct (chunk_prefix_ok _ _ _ _ _ _ Hch) as [st1 H1].
  rewrite (chunk_merge _ _ _ _ _ _ H1) in Hch.
  rewrite (received_eq u (a ++ b) s c st2 Fc Hc Hd) in Hp
    by (rewrite (chunk_merge _ _ _ _ _ _ H1); exact Hch).
  destruct st1 as [b1 q1], st2 as [b2 q2].
  destruct (chunk_queue _ _ _ _ _ _ _ _ Hch) as (d & Hq2 & Hd2). cbn [rb_buf rb_queue] in *. subst q2.
  set (sm := setb u (mkBuf b2 []) s) in *.
  assert (Fm : find E u (s_tab E sm) = Some (set_buf E (mkBuf b2 []) c)).
  { unfold sm, setb. cbn [s_tab]. rewrite find_modb, Fc. reflexivity. }
  rewrite loop_app in Hp by congruence.
  set (sa := setb u (mkBuf b1 []) s).
  assert (Fa : find E u (s_tab E sa) = Some (set_buf E (mkBuf b1 []) c)).
  { unfold sa, setb. cbn [s_tab]. rewrite find_modb, Fc. reflexivity. }
  pose proof (sim_loop u (mkBuf b2 []) (is_assigned E c) (has_key E c) q1 sa) as S.
  unfold sa in S at 1 3 6. rewrite !setb_setb in S. fold sm in S.
  pose proof (keeps_loop u (is_assigned E c) (has_key E c) q1 sa _ Fa) as K. unfold wp in K.
  unfold bindp in Hp.
  destruct (loop E u (is_assigned E c) (has_key E c) q1 sm) as [tm [s1m rm]].
  destruct (loop E u (is_assigned E c) (has_key E c) q1 sa) as [t1 [s1 r1]] eqn:L1.
  cbn [fst snd] in S, K. destruct S as (-> & -> & Hr).
  destruct rm as [[]|e|]; try discriminate.
  destruct r1 as [[]|e|]; cbn [rres] in Hr; try tauto.
  destruct K as (c1 & F1 & K1 & K2 & K3 & K4 & K5).
  destruct (loop E u (is_assigned E c) (has_key E c) d (setb u (mkBuf b2 []) s1)) as [t2 [s2 r2]] eqn:L2.
  injection Hp as <- <- ->.
  assert (F2 : find E u (s_tab E (setb u (mkBuf b2 []) s1)) = Some (set_buf E (mkBuf b2 []) c1)).
  { unfold setb. cbn [s_tab]. rewrite find_modb, F1. reflexivity. }
  assert (Hd1 : c_disc E c1 = false).
  { destruct (c_disc E c1) eqn:Hx; [|reflexivity].
    pose proof (keeps_loop u (is_assigned E c) (has_key E c) d _ _ F2) as K. unfold wp in K.
    rewrite L2 in K. destruct K as (c2 & Fc2 & _ & _ & _ & _ & K). cbn [fst snd] in Fc2.
    assert (c2 = c') by congruence. subst c2. rewrite K in Hd'; [discriminate|exact Hx]. }
  cbn [set_buf c_buf c_assigned c_conf c_key] in K1, K2, K3, K4.
  assert (Hc1 : c_conf E c1 = true) by congruence.
  assert (Hk1 : c_key E c1 <> None) by auto.
  assert (Ch2 : chunk (e_get E) (e_sig E) (c_buf E c1) b = (COk, mkBuf b2 d)).
  { rewrite K1. apply (Hd2 []). }
  exists t1, s1, c1, t2, (mkBuf b2 d).
  split; [rewrite (received_eq u a s c (mkBuf b1 q1)) by auto; exact L1|].
  split; [exact F1|]. split; [exact Hc1|]. split; [exact Hd1|]. split; [exact Hk1|]. split; [exact Ch2|].
  split; [|reflexivity].
  rewrite (received_eq u b s1 c1 (mkBuf b2 d)) by auto. cbn [rb_buf rb_queue].
  replace (is_assigned E c1) with (is_assigned E c) by (unfold is_assigned; rewrite K2; reflexivity).
  replace (has_key E c1) with (has_key E c); [exact L2|].
  unfold has_key. destruct (c_key E c), (c_key E c1); congruence.
Qed.

(** the same data in one piece or in many *)
Theorem received_many u ds : forall s c t s' c' st2,
  ds <> [] ->
  find E u (s_tab E s) = Some c -> c_conf E c = true -> c_disc E c = false -> c_key E c <> None ->
  chunk (e_get E) (e_sig E) (c_buf E c) (concat ds) = (COk, st2) ->
  listen E [VReceived u (concat ds)] s = (t, (s', PGo true)) ->
  find E u (s_tab E s') = Some c' -> c_disc E c' = false ->
  listen E (map (VReceived u) ds) s = (t, (s', PGo true)).
Proof.
  assert (L1 : forall x s t s', listen E [VReceived u x] s = (t, (s', PGo true)) <->
    process_received_data E u x s = (t, (s', PGo tt))).
  { intros x s t s'. cbn [listen step]. unfold bindp, ret.
    destruct (process_received_data E u x s) as [t0 [s0 [[]|e|]]]; cbn; rewrite ?app_nil_r; split; congruence. }
  induction ds as [|d ds IH]; intros s c t s' c' st2 Hne Fc Hc Hd Hk Hch Hl Fc' Hd'; [congruence|].
  destruct ds as [|d2 ds].
  { cbn [concat] in Hl. rewrite app_nil_r in Hl. exact Hl. }
  change (concat (d :: d2 :: ds)) with (d ++ concat (d2 :: ds)) in *.
  apply L1 in Hl.
  destruct (received_two u d (concat (d2 :: ds)) s c t s' c' st2 Fc Hc Hd Hk Hch Hl Fc' Hd')
    as (t1 & s1 & c1 & t2 & st3 & P1 & F1 & Hc1 & Hd1 & Hk1 & Ch & P2 & ->).
  assert (I : listen E (map (VReceived u) (d2 :: ds)) s1 = (t2, (s', PGo true))).
  { eapply IH; [discriminate|exact F1|exact Hc1|exact Hd1|exact Hk1|exact Ch|apply L1; exact P2|exact Fc'|exact Hd']. }
  clear -P1 I. change (map (VReceived u) (d :: d2 :: ds)) with (VReceived u d :: map (VReceived u) (d2 :: ds)).
  cbn [listen]. cbn [step]. unfold bindp at 1 2. rewrite P1. cbn [ret]. rewrite I. rewrite app_nil_r. reflexivity.
Qed.

End Seg.
