(** Further facts about the producer: what follows a call of a handler, which
    consumers a step concerns, discredited consumers, segmentation. *)
From Coq Require Import List Arith NArith Bool Lia.
From Verif Require Import Bytes WireModel FrameModel FrameProofs ProducerModel ProducerProofs ProducerInv.
Import ListNotations.
Open Scope N_scope.

Section More.
Variable E : env.

Notation out := (out E).
Notation st := (st E).
Notation P := (P E).
Notation X := (e_user E).

(** ** What follows a call *)

(** receiver, sequence and content of a send *)
Definition strip (o : out) : option (uuid * N * payload X) :=
  match o with OSend _ v seq p _ => Some (v, seq, p) | _ => None end.

(** the sends of a list of broadcasts, in order *)
Definition sends (l : list (list uuid * X)) : list (option (uuid * N * payload X)) :=
  flat_map (fun b => map (fun v => Some (v, 0, PBroadcast (snd b))) (fst b)) l.

Definition answer_of (res : hres X) : X := match res with HErr x => x | HAct _ x _ => x end.
Definition bcasts_of (r : nat) (res : hres X) : list (list uuid * X) :=
  match res with
  | HErr _ => []
  | HAct n _ bs =>
    if Nat.ltb 1 (length (e_requests E r)) then declared E (nth n (e_requests E r) []) bs else []
  end.

Definition broadcast_after (ds : bdecls) (bs : option (list (bcast X))) (post : list out) : Prop :=
  match bs with
  | None => True
  | Some bs =>
    (exists y rest, In y (map snd (declared E ds bs)) /\
       post = OUnpacked E None 0 (PBroadcast y) :: rest) \/
    (exists os rest, post = os ++ ODeferred E :: rest /\ map strip os = sends (declared E ds bs))
  end.

Definition after (o : out) (post : list out) : Prop :=
  match o with
  | OCall _ u r m ids res => exists seq,
    (exists y rest, In y (map snd (bcasts_of r res)) /\
       post = OUnpacked E (Some u) 0 (PBroadcast y) :: rest) \/
    (exists rest, post = OUnpacked E (Some u) seq (PAnswer (answer_of res)) :: rest) \/
    (exists rest, post = OSend E u seq (PAnswer (answer_of res)) false :: rest) \/
    (exists os rest, post = OSend E u seq (PAnswer (answer_of res)) true :: os ++ ODeferred E :: rest /\
       map strip os = sends (bcasts_of r res))
  | OBeacon _ u b m ids ok => ok = true -> exists seq,
    (exists rest, post = OUnpacked E (Some u) seq PBeacon :: rest) \/
    (exists rest, post = OSend E u seq PBeacon false :: rest) \/
    (exists rest, post = OSend E u seq PBeacon true :: ODeferred E :: rest)
  | OHandle _ u h m =>
    forall pw, e_self E m = None -> e_hash E m = Some pw ->
    (exists rest, post = OUnpacked E (Some u) (h_seq h) (PHash (hash_valid E pw)) :: rest) \/
    (exists ok rest, post = OSend E u (h_seq h) (PHash (hash_valid E pw)) ok :: rest)
  | OConnected _ u ids bs => broadcast_after (e_connected E) bs post
  | ODisconnected _ u ids bs => broadcast_after (e_disconnected E) bs post
  | OEvent _ n ids bs => broadcast_after (e_events E n) bs post
  | _ => True
  end.

Definition Fut (t : list out) : Prop := forall pre o post, t = pre ++ o :: post -> after o post.

Lemma broadcast_after_app ds bs post more : broadcast_after ds bs post -> broadcast_after ds bs (post ++ more).
Proof.
  destruct bs as [bs|]; cbn; auto. intros [(y & rest & Hy & ->)|(os & rest & -> & H)].
  - left. exists y, (rest ++ more). auto.
  - right. exists os, (rest ++ more). rewrite <- app_assoc. auto.
Qed.

Lemma after_app o post more : after o post -> after o (post ++ more).
Proof.
  destruct o; cbn [after]; auto using broadcast_after_app.
  - intros H pw H1 H2. destruct (H pw H1 H2) as [(rest & ->)|(ok & rest & ->)].
    + left. exists (rest ++ more). reflexivity.
    + right. exists ok, (rest ++ more). reflexivity.
  - intros (seq & H). exists seq.
    destruct H as [(y & rest & Hy & ->)|[(rest & ->)|[(rest & ->)|(os & rest & -> & H)]]].
    + left. exists y, (rest ++ more). auto.
    + right. left. exists (rest ++ more). auto.
    + right. right. left. exists (rest ++ more). auto.
    + right. right. right. exists os, (rest ++ more). cbn [app]. rewrite <- app_assoc. auto.
  - intros H Hok. destruct (H Hok) as (seq & [(rest & ->)|[(rest & ->)|(rest & ->)]]); exists seq.
    + left. exists (rest ++ more). auto.
    + right. left. exists (rest ++ more). auto.
    + right. right. exists (rest ++ more). auto.
Qed.

Lemma Fut_nil : Fut [].
Proof. intros pre o post H. destruct pre; discriminate. Qed.

Lemma Fut_cons o t : after o t -> Fut t -> Fut (o :: t).
Proof.
  intros Ho Ht pre x post H. destruct pre as [|y pre]; cbn in H; injection H as <- H.
  - subst. exact Ho.
  - eapply Ht. exact H.
Qed.

Lemma Fut_app a b : Fut a -> Fut b -> Fut (a ++ b).
Proof.
  intros Ha Hb pre o post H.
  destruct (Nat.le_gt_cases (length a) (length pre)) as [L|L].
  - assert (exists p, pre = a ++ p /\ b = p ++ o :: post) as (p & -> & Hp).
    { symmetry in H. apply app_split_len in H; [|exact L]. destruct H as (e & -> & ->). eauto. }
    eapply Hb. exact Hp.
  - assert (exists e, a = pre ++ e /\ o :: post = e ++ b) as (e & -> & He).
    { apply app_split_len in H; [|lia]. exact H. }
    destruct e as [|x e]; [rewrite app_nil_r in L; lia|]. cbn in He. injection He as <- ->.
    apply after_app. eapply Ha. reflexivity.
Qed.

Definition fut {A} (m : P A) : Prop := forall s, wp E m s (fun t _ _ => Fut t).

Lemma fut_bind {A B} (m : P A) (f : A -> P B) : fut m -> (forall a, fut (f a)) -> fut (bindp E m f).
Proof.
  intros Hm Hf s. apply wp_bind. eapply wp_mono; [apply Hm|]. cbv beta.
  intros t s' r Ht. destruct r as [a|e|]; auto.
  eapply wp_mono; [apply Hf|]. cbv beta. intros t2 s2 r2 Ht2. apply Fut_app; auto.
Qed.

Lemma quiet_after o post : quiet E o = true -> after o post.
Proof. destruct o; cbn; try discriminate; auto. Qed.

Lemma quiet_Fut t : forallb (quiet E) t = true -> Fut t.
Proof.
  induction t as [|o t IH]; intros H; [apply Fut_nil|].
  cbn in H. apply andb_true_iff in H. destruct H. apply Fut_cons; auto using quiet_after.
Qed.

Lemma fut_calm {A} (m : P A) : calm E m -> fut m.
Proof. intros H s. eapply wp_mono; [apply H|]. intros t s' r (Ht & _). apply quiet_Fut. auto. Qed.

Lemma fut_emit o : (forall post, after o post) -> fut (emit E o).
Proof. intros H s. unfold wp, emit. cbn [fst]. apply Fut_cons; auto using Fut_nil. Qed.

Lemma fut_upd u f : fut (upd E u f).
Proof. intros s. unfold wp, upd. destruct (find E u (s_tab E s)); apply Fut_nil. Qed.

Lemma fut_send u seq p : fut (send E u seq p).
Proof.
  apply fut_bind; [apply fut_calm, calm_world|]. intros ok.
  apply fut_bind; [apply fut_emit; cbn; auto|]. intros. apply fut_calm, calm_ret.
Qed.

Lemma fut_pack_send u seq p : fut (pack_send E u seq p).
Proof.
  apply fut_bind; [apply fut_calm, calm_try_pack|]. intros [|]; [apply fut_send|apply fut_calm, calm_ret].
Qed.

Lemma fut_disconnect u : fut (disconnect E u).
Proof.
  apply fut_bind; [apply fut_calm, calm_look|]. intros [c|]; [|apply fut_calm, calm_ret].
  destruct (c_disc E c); [apply fut_calm, calm_ret|].
  apply fut_bind; [apply fut_upd|]. intros _.
  apply fut_bind; [apply fut_calm, calm_world|]. intros ok.
  apply fut_bind; [apply fut_emit; cbn; auto|]. intros _.
  destruct ok; [apply fut_calm, calm_ret|apply fut_calm, calm_stop].
Qed.

Lemma fut_ident_err u e : fut (bindp E (ident_at E u) (fun i => emit_error E e (Some u) i)).
Proof. apply fut_bind; [apply fut_calm, calm_ident_at|]. intros i. apply fut_calm, calm_emit_error. Qed.

Lemma fut_expel u e : fut (expel E u e).
Proof. apply fut_bind; [apply fut_disconnect|]. intros _. apply fut_ident_err. Qed.

Lemma fut_ret {A} (a : A) : fut (ret E a).
Proof. apply fut_calm, calm_ret. Qed.

Lemma fut_responsing u : fut (responsing_err E u).
Proof.
  apply fut_bind; [destruct (e_cs E); auto using fut_ret, fut_disconnect|]. intros _.
  destruct (e_cs E); auto using fut_ret, fut_ident_err.
Qed.

Lemma fut_not_assigned u : fut (not_assigned E u).
Proof.
  apply fut_bind; [destruct (e_is E); auto using fut_ret, fut_disconnect|]. intros _.
  destruct (e_is E); auto using fut_ret, fut_ident_err.
Qed.

(** exact behaviour of the small pieces *)
Lemma wp_world {A} (f : _ -> _ * A) s (Q : list out -> st -> pres A -> Prop) :
  (forall w' a, f (s_w E s) = (w', a) -> Q [] (mkSt E w' (s_tab E s) (s_conf E s)) (PGo a)) ->
  wp E (world E f) s Q.
Proof. intros H. unfold wp, world. destruct (f (s_w E s)) as [w' a] eqn:Ef. cbn. auto. Qed.

Lemma wp_try_pack u seq p s :
  wp E (try_pack E u seq p) s (fun t s' r => s_tab E s' = s_tab E s /\ s_conf E s' = s_conf E s /\
    ((t = [] /\ r = PGo true) \/ (t = [OUnpacked E u seq p] /\ r = PGo false))).
Proof.
  unfold try_pack. apply wp_bind. apply wp_world. intros w' [|] _; unfold wp; cbn; auto 6.
Qed.

Lemma wp_send u seq p s :
  wp E (send E u seq p) s (fun t s' r => s_tab E s' = s_tab E s /\ s_conf E s' = s_conf E s /\
    exists ok, t = [OSend E u seq p ok] /\ r = PGo ok).
Proof. unfold send. apply wp_bind. apply wp_world. intros w' ok _. unfold wp. cbn. eauto. Qed.

Lemma wp_pack_send u seq p s :
  wp E (pack_send E u seq p) s (fun t s' r => s_tab E s' = s_tab E s /\ s_conf E s' = s_conf E s /\
    ((t = [OUnpacked E (Some u) seq p] /\ r = PGo false) \/
     exists ok, t = [OSend E u seq p ok] /\ r = PGo ok)).
Proof.
  unfold pack_send. apply wp_bind. eapply wp_mono; [apply wp_try_pack|].
  intros t s' r (Ht & Hc & [[-> ->]|[-> ->]]).
  - eapply wp_mono; [apply wp_send|]. intros t2 s2 r2 (Ht2 & Hc2 & ok & -> & ->).
    split; [congruence|]. split; [congruence|]. right. exists ok. auto.
  - unfold wp. cbn. auto.
Qed.

Lemma wp_broadcast us x : forall s,
  wp E (broadcast E us x) s (fun t s' r => r = PGo tt /\
    map strip t = map (fun v => Some (v, 0, PBroadcast x)) us).
Proof.
  induction us as [|u us IH]; intros s; cbn [broadcast].
  - unfold wp. cbn. auto.
  - apply wp_bind. eapply wp_mono; [apply wp_send|]. intros t s' r (_ & _ & ok & -> & ->).
    eapply wp_mono; [apply IH|]. cbv beta. intros t2 s2 r2 [-> H]. split; auto. cbn. rewrite H. auto.
Qed.

Lemma wp_broadcast_all l : forall s,
  wp E (broadcast_all E l) s (fun t s' r => r = PGo tt /\ map strip t = sends l).
Proof.
  induction l as [|[us x] l IH]; intros s; cbn [broadcast_all].
  - unfold wp. cbn. auto.
  - apply wp_bind. eapply wp_mono; [apply wp_broadcast|]. intros t s' r [-> H].
    eapply wp_mono; [apply IH|]. cbv beta. intros t2 s2 r2 [-> H2]. split; auto.
    rewrite map_app, H, H2. reflexivity.
Qed.

Lemma wp_pack_all u l : forall s,
  wp E (pack_all E u l) s (fun t s' r =>
    (t = [] /\ r = PGo true) \/
    (exists y, In y (map snd l) /\ t = [OUnpacked E u 0 (PBroadcast y)] /\ r = PGo false)).
Proof.
  induction l as [|[us x] l IH]; intros s; cbn [pack_all].
  - unfold wp. cbn. auto.
  - apply wp_bind. eapply wp_mono; [apply wp_try_pack|]. intros t s' r (_ & _ & [[-> ->]|[-> ->]]).
    + eapply wp_mono; [apply IH|]. cbv beta. intros t2 s2 r2 [[-> ->]|(y & Hy & -> & ->)].
      * left. auto.
      * right. exists y. cbn. auto.
    + unfold wp. cbn. right. exists x. auto.
Qed.

Lemma wp_deferred s : wp E (deferred E) s (fun t s' r => t = [ODeferred E] /\ r = PGo tt).
Proof. unfold deferred. apply wp_bind. apply wp_world. intros w' [] _. unfold wp. cbn. auto. Qed.

Lemma wp_bcast_deferred {A} l (a : A) s :
  wp E (bindp E (broadcast_all E l) (fun _ => bindp E (deferred E) (fun _ => ret E a))) s
    (fun t s' r => r = PGo a /\ exists os, t = os ++ [ODeferred E] /\ map strip os = sends l).
Proof.
  apply wp_bind. eapply wp_mono; [apply wp_broadcast_all|]. intros t s' r [-> H].
  apply wp_bind. eapply wp_mono; [apply wp_deferred|]. intros t2 s2 r2 [-> ->].
  unfold wp. cbn. split; auto. exists t. auto.
Qed.

Lemma sends_Fut os l : map strip os = sends l -> Fut os.
Proof.
  revert l. induction os as [|o os IH]; intros l H; [apply Fut_nil|].
  assert (exists k, map strip os = k /\ strip o <> None /\ forall x, In x k -> x <> None) as (k & Hk & Ho & Hn).
  { assert (Hs : forall x, In x (sends l) -> x <> None).
    { intros x Hx. apply in_flat_map in Hx. destruct Hx as (b & _ & Hx). apply in_map_iff in Hx.
      destruct Hx as (v & <- & _). discriminate. }
    rewrite <- H in Hs. cbn [map] in Hs. exists (map strip os). split; auto. split.
    - apply Hs. left. auto.
    - intros x Hx. apply Hs. right. auto. }
  clear H l IH. apply Fut_cons.
  - destruct o; cbn in Ho; try congruence. cbn. auto.
  - subst k. clear Ho o. induction os as [|o os IH]; [apply Fut_nil|].
    apply Fut_cons; [|apply IH; intros x Hx; apply Hn; right; auto].
    specialize (Hn (strip o) (or_introl eq_refl)). destruct o; cbn in Hn; try congruence. cbn. auto.
Qed.

Lemma quiet1 o : quiet E o = true -> Fut [o].
Proof. intros H. apply Fut_cons; auto using Fut_nil, quiet_after. Qed.

Lemma Fut_send u seq p ok t : Fut t -> Fut (OSend E u seq p ok :: t).
Proof. intros H. apply Fut_cons; auto. cbn. auto. Qed.

Lemma fut_process_request u r i seq m : fut (process_request E u r i seq m).
Proof.
  intros s. unfold process_request. apply wp_bind. unfold wp at 1, get_tab at 1. cbn [fst snd app].
  apply wp_bind. apply wp_world. intros w' res _. cbn [app].
  apply wp_bind. unfold wp at 1, emit at 1. cbn [fst snd].
  set (s1 := mkSt E w' _ _). clearbody s1.
  enough (H : wp E (bindp E
     match res with
     | HErr x => ret E (Some (x, []))
     | HAct n x bs =>
       if Nat.ltb 1 (length (e_requests E r)) then
         bindp E (pack_all E (Some u) (declared E (nth n (e_requests E r) []) bs))
           (fun ok => ret E (if ok then Some (x, declared E (nth n (e_requests E r) []) bs) else None))
       else ret E (Some (x, []))
     end (fun todo => match todo with
       | None => ret E false
       | Some (x, l) => bindp E (pack_send E u seq (PAnswer x)) (fun ok =>
           if ok then bindp E (broadcast_all E l) (fun _ => bindp E (deferred E) (fun _ => ret E true))
           else ret E false) end)) s1
     (fun t s' r' => after (OCall E u r m (idents E (s_tab E s)) res) t /\ Fut t)).
  { eapply wp_mono; [exact H|]. cbv beta. intros t s' r' [Ha Hf]. cbn [app]. apply Fut_cons; auto. }
  apply wp_bind.
  assert (Hin : wp E match res with
     | HErr x => ret E (Some (x, []))
     | HAct n x bs =>
       if Nat.ltb 1 (length (e_requests E r)) then
         bindp E (pack_all E (Some u) (declared E (nth n (e_requests E r) []) bs))
           (fun ok => ret E (if ok then Some (x, declared E (nth n (e_requests E r) []) bs) else None))
       else ret E (Some (x, []))
     end s1 (fun t s' r' =>
       (t = [] /\ r' = PGo (Some (answer_of res, bcasts_of r res))) \/
       (exists y, In y (map snd (bcasts_of r res)) /\
          t = [OUnpacked E (Some u) 0 (PBroadcast y)] /\ r' = PGo None))).
  { destruct res as [x|n x bs]; [unfold wp; cbn; auto|]. cbn [answer_of bcasts_of].
    destruct (Nat.ltb 1 (length (e_requests E r))); [|unfold wp; cbn; auto].
    apply wp_bind. eapply wp_mono; [apply wp_pack_all|].
    intros t s' r' [[-> ->]|(y & Hy & -> & ->)]; unfold wp; cbn; eauto 6. }
  eapply wp_mono; [exact Hin|]. cbv beta. intros t s' r' [[-> ->]|(y & Hy & -> & ->)].
  2:{ unfold wp. cbn [ret fst snd]. rewrite app_nil_r. split; [|apply quiet1; reflexivity].
      cbn [after]. exists seq. left. eauto. }
  apply wp_bind. eapply wp_mono; [apply wp_pack_send|].
  intros t s2 r2 (_ & _ & [[-> ->]|(ok & -> & ->)]).
  { unfold wp. cbn [ret fst snd app]. split; [|apply quiet1; reflexivity].
    cbn [after]. exists seq. eauto. }
  destruct ok.
  - eapply wp_mono; [apply wp_bcast_deferred|]. cbv beta. intros t s3 r3 [-> (os & -> & Hos)]. split.
    + cbn [after app]. exists seq. right. right. right. exists os, []. auto.
    + cbn [app]. apply Fut_send. apply Fut_app; [eapply sends_Fut; eauto|apply quiet1; reflexivity].
  - unfold wp. cbn [ret fst snd app]. split; [|apply Fut_send, Fut_nil].
    cbn [after]. exists seq. right. right. left. eauto.
Qed.

Lemma fut_process_beacon u b i seq m : fut (process_beacon E u b i seq m).
Proof.
  intros s. unfold process_beacon. apply wp_bind. unfold wp at 1, get_tab at 1. cbn [fst snd app].
  apply wp_bind. apply wp_world. intros w' ok _. cbn [app].
  apply wp_bind. unfold wp at 1, emit at 1. cbn [fst snd].
  set (s1 := mkSt E w' _ _). clearbody s1. destruct ok.
  2:{ unfold wp. cbn [ret fst snd app]. apply Fut_cons; [cbn; discriminate|apply Fut_nil]. }
  apply wp_bind. eapply wp_mono; [apply wp_pack_send|].
  intros t s2 r2 (_ & _ & [[-> ->]|(ok & -> & ->)]).
  { unfold wp. cbn [ret fst snd app]. apply Fut_cons; [|apply quiet1; reflexivity].
    cbn. intros _. exists seq. eauto. }
  destruct ok.
  - apply wp_bind. eapply wp_mono; [apply wp_deferred|]. intros t2 s3 r3 [-> ->].
    unfold wp. cbn [ret fst snd app]. apply Fut_cons; [|apply Fut_send, quiet1; reflexivity].
    cbn. intros _. exists seq. right. right. eauto.
  - unfold wp. cbn [ret fst snd app]. apply Fut_cons; [|apply Fut_send, Fut_nil].
    cbn. intros _. exists seq. right. left. eauto.
Qed.

Lemma fut_dispatch u c h m : fut (dispatch E u c h m).
Proof.
  unfold dispatch. destruct (e_request E m).
  - apply fut_bind; [apply fut_process_request|]. intros [|]; [apply fut_ret|apply fut_responsing].
  - destruct (e_beacon E m); [|apply fut_ret].
    apply fut_bind; [apply fut_process_beacon|]. intros [|]; [apply fut_ret|].
    apply fut_calm, calm_emit_error.
Qed.

Lemma fut_handle u asg hk h m c : fut (bindp E (emit E (OHandle E u h m)) (fun _ => handle E u asg hk h m c)).
Proof.
  intros s. apply wp_bind. unfold wp at 1, emit at 1. cbn [fst snd].
  enough (H : wp E (handle E u asg hk h m c) s (fun t _ _ => after (OHandle E u h m) t /\ Fut t)).
  { eapply wp_mono; [exact H|]. cbv beta. intros t s' r [Ha Hf]. apply Fut_cons; auto. }
  unfold handle. destruct (e_self E m) as [k|] eqn:Es.
  - assert (W : forall t, after (OHandle E u h m) t) by (intros t; cbn; congruence).
    match goal with |- wp E ?p s _ => assert (F : fut p) end.
    { assert (O : fut (match e_hash E m with
        | Some pw =>
          bindp E (if hash_valid E pw then upd E u (set_hash E) else ret E tt) (fun _ =>
          bindp E (pack_send E u (h_seq h) (PHash (hash_valid E pw))) (fun ok =>
          bindp E (if ok then ret E tt else responsing_err E u) (fun _ =>
          if hash_valid E pw then ret E tt else expel E u (ENoKey u))))
        | None =>
          if negb (c_hash E c) then expel E u (ENoKey u)
          else if negb hk then expel E u (ENoKey u)
          else if negb asg && match e_is E with IIgnore => false | _ => true end then not_assigned E u
          else dispatch E u c h m
        end)).
      { destruct (e_hash E m) as [pw|].
        - apply fut_bind; [destruct (hash_valid E pw); auto using fut_upd, fut_ret|]. intros _.
          apply fut_bind; [apply fut_pack_send|]. intros ok.
          apply fut_bind; [destruct ok; auto using fut_ret, fut_responsing|]. intros _.
          destruct (hash_valid E pw); auto using fut_ret, fut_expel.
        - destruct (negb (c_hash E c)); [apply fut_expel|]. destruct (negb hk); [apply fut_expel|].
          destruct (negb asg && _); [apply fut_not_assigned|apply fut_dispatch]. }
      destruct (c_hash E c); [exact O|].
      apply fut_bind; [apply fut_upd|]. intros _. apply fut_bind; [apply fut_pack_send|].
      intros [|]; auto using fut_ret, fut_responsing. }
    eapply wp_mono; [apply F|]. cbv beta. auto.
  - destruct (e_hash E m) as [pw|] eqn:Eh.
    + apply wp_bind.
      assert (U : wp E (if hash_valid E pw then upd E u (set_hash E) else ret E tt) s
                    (fun t _ r => t = [] /\ r = PGo tt)).
      { destruct (hash_valid E pw); unfold wp; [|cbn; auto]. unfold upd.
        destruct (find E u (s_tab E s)); cbn; auto. }
      eapply wp_mono; [exact U|]. cbv beta. intros t s' r [-> ->]. cbn [app].
      apply wp_bind. eapply wp_mono; [apply wp_pack_send|]. cbv beta.
      intros t s2 r2 (_ & _ & Hc).
      assert (Ha : exists o ok, t = [o] /\ r2 = PGo ok /\ Fut [o] /\ forall rest, after (OHandle E u h m) (o :: rest)).
      { destruct Hc as [[-> ->]|(ok & -> & ->)].
        - eexists _, false. split; [reflexivity|]. split; [reflexivity|].
          split; [apply quiet1; reflexivity|]. intros rest pw' _ Hp.
          assert (pw' = pw) by congruence. subst. left. eauto.
        - eexists _, ok. split; [reflexivity|]. split; [reflexivity|].
          split; [apply Fut_send, Fut_nil|]. intros rest pw' _ Hp.
          assert (pw' = pw) by congruence. subst. right. eauto. }
      destruct Ha as (o & ok & -> & -> & Fo & Ha).
      assert (F : fut (bindp E (if ok then ret E tt else responsing_err E u) (fun _ =>
          if hash_valid E pw then ret E tt else expel E u (ENoKey u)))).
      { apply fut_bind; [destruct ok; auto using fut_ret, fut_responsing|]. intros _.
        destruct (hash_valid E pw); auto using fut_ret, fut_expel. }
      eapply wp_mono; [apply F|]. cbv beta. intros t s3 r3 Ht. split; [apply Ha|].
      apply (Fut_app [o]); auto.
    + assert (W : forall t, after (OHandle E u h m) t) by (intros t; cbn; congruence).
      match goal with |- wp E ?p s _ => assert (F : fut p) end.
      { destruct (negb (c_hash E c)); [apply fut_expel|]. destruct (negb hk); [apply fut_expel|].
        destruct (negb asg && _); [apply fut_not_assigned|apply fut_dispatch]. }
      eapply wp_mono; [apply F|]. cbv beta. auto.
Qed.

Lemma bind_assoc {A B C} (m : P A) (f : A -> P B) (g : B -> P C) s :
  bindp E (bindp E m f) g s = bindp E m (fun a => bindp E (f a) g) s.
Proof.
  unfold bindp. destruct (m s) as [t [s1 r]]. destruct r as [a|e|]; auto.
  destruct (f a s1) as [t2 [s2 r2]]. destruct r2 as [b|e|]; auto.
  destruct (g b s2) as [t3 x]. rewrite app_assoc. auto.
Qed.

Lemma fut_loop u asg hk ms : fut (loop E u asg hk ms).
Proof.
  induction ms as [|[h m] ms IH]; cbn [loop]; [apply fut_ret|].
  apply fut_bind; [apply fut_calm, calm_look|]. intros [c|]; [|apply fut_ret].
  intros s. unfold wp. rewrite <- bind_assoc.
  apply (fut_bind _ _ (fut_handle u asg hk h m c) (fun _ => IH) s).
Qed.

Lemma fut_received u data : fut (process_received_data E u data).
Proof.
  apply fut_bind; [apply fut_calm, calm_look|]. intros [c|]; [|apply fut_responsing].
  destruct (negb (c_conf E c)); [apply fut_expel|].
  destruct (c_disc E c); [apply fut_ret|].
  destruct (chunk (e_get E) (e_sig E) (c_buf E c) data) as [o b].
  destruct o.
  - apply fut_bind; [apply fut_upd|]. intros _. apply fut_loop.
  - apply fut_bind; [apply fut_upd|]. intros _. apply fut_responsing.
  - intros s. apply Fut_nil.
Qed.

Lemma wp_emit_event ds bs s :
  wp E (emit_event E ds bs) s (fun t s' r => broadcast_after ds bs t /\ Fut t /\ exists b, r = PGo b).
Proof.
  destruct bs as [bs|]; cbn [emit_event].
  2:{ unfold wp. cbn. split; [exact I|]. split; [apply Fut_nil|eauto]. }
  apply wp_bind. eapply wp_mono; [apply wp_pack_all|]. intros t s' r [[-> ->]|(y & Hy & -> & ->)].
  - eapply wp_mono; [apply wp_bcast_deferred|]. cbv beta. intros t2 s2 r2 [-> (os & -> & Hos)].
    cbn [app]. split; [|split; [|eauto]].
    + right. exists os, []. auto.
    + apply Fut_app; [eapply sends_Fut; eauto|apply quiet1; reflexivity].
  - unfold wp. cbn [ret fst snd app]. split; [|split; [apply quiet1; reflexivity|eauto]].
    left. exists y, []. auto.
Qed.

Lemma fut_call_event o ds bs (k : P unit) :
  (forall t, broadcast_after ds bs t -> after o t) -> fut k ->
  fut (bindp E (emit E o) (fun _ => bindp E (emit_event E ds bs) (fun _ => k))).
Proof.
  intros Ho Hk s. apply wp_bind. unfold wp at 1, emit at 1. cbn [fst snd].
  apply wp_bind. eapply wp_mono; [apply wp_emit_event|]. cbv beta. intros t s' r (Hb & Hf & b & ->).
  eapply wp_mono; [apply Hk|]. cbv beta. intros t2 s2 r2 Ht2. cbn [app].
  apply Fut_cons; [|apply Fut_app; auto]. apply after_app. auto.
Qed.

Lemma fut_add u : fut (add_connection E u).
Proof.
  apply fut_bind; [apply fut_calm, calm_look|]. intros [c|]; [apply fut_calm, calm_stop|].
  apply fut_bind; [apply fut_calm, calm_get_tab|]. intros t.
  apply fut_bind; [apply fut_calm, calm_world|]. intros bs.
  apply fut_call_event; [auto|]. intros s. apply Fut_nil.
Qed.

Lemma fut_remove u : fut (remove_connection E u).
Proof.
  apply fut_bind; [apply fut_calm, calm_look|]. intros [c|]; [|apply fut_ret].
  apply fut_bind; [intros s; apply Fut_nil|]. intros _.
  apply fut_bind; [apply fut_calm, calm_get_tab|]. intros t.
  apply fut_bind; [apply fut_calm, calm_world|]. intros bs.
  apply fut_call_event; [auto|]. apply fut_ret.
Qed.

Lemma fut_confirm : fut (confirm E).
Proof.
  intros s. unfold confirm, wp. destruct (s_conf E s) as [|u q]; [apply Fut_nil|].
  set (s1 := mkSt E _ _ q). clearbody s1.
  assert (F : fut (bindp E (look E u) (fun c => match c with
     | Some _ => bindp E (upd E u (set_conf E)) (fun _ =>
         bindp E (try_pack E (Some u) 0 PConfirm) (fun ok =>
         if ok then bindp E (send E u 0 PConfirm) (fun ok0 => if ok0 then ret E tt else stop E EServer)
         else stop E (EProtocol u)))
     | None => emit_error E EConsumer (Some u) None end))).
  { apply fut_bind; [apply fut_calm, calm_look|]. intros [c|]; [|apply fut_calm, calm_emit_error].
    apply fut_bind; [apply fut_upd|]. intros _.
    apply fut_bind; [apply fut_calm, calm_try_pack|]. intros [|]; [|apply fut_calm, calm_stop].
    apply fut_bind; [apply fut_send|]. intros [|]; [apply fut_ret|apply fut_calm, calm_stop]. }
  apply (F s1).
Qed.

Lemma fut_step e : fut (step E e).
Proof.
  assert (G : forall (m : P unit) (b : bool), fut m -> fut (bindp E m (fun _ => ret E b))).
  { intros m b H. apply fut_bind; auto. intros _. apply fut_ret. }
  destruct e; cbn [step]; auto using fut_ret, fut_add, fut_remove, fut_received, fut_confirm.
  - apply fut_bind; [apply fut_calm, calm_world|]. intros ok.
    apply fut_bind; [apply fut_emit; cbn; auto|]. intros _.
    destruct ok; [apply fut_ret|apply fut_calm, calm_stop].
  - apply fut_bind; [apply fut_calm, calm_opt_ident|]. intros i. apply G, fut_calm, calm_emit_error.
  - apply fut_bind; [apply fut_calm, calm_opt_ident|]. intros i. apply G, fut_calm, calm_emit_error.
  - apply G, fut_calm, calm_emit_error.
  - apply fut_bind; [apply fut_calm, calm_get_tab|]. intros t.
    apply fut_bind; [apply fut_calm, calm_world|]. intros bs.
    intros s. apply wp_bind. unfold wp at 1, emit at 1. cbn [fst snd].
    apply wp_bind. eapply wp_mono; [apply wp_emit_event|]. cbv beta. intros t' s' r (Hb & Hf & b & ->).
    unfold wp. cbn [ret fst snd app]. rewrite app_nil_r. apply Fut_cons; auto.
  - apply fut_bind; [apply fut_calm, calm_look|]. intros [c|].
    + apply fut_bind; [apply fut_upd|]. intros _. apply G, fut_emit. cbn. auto.
    + apply G, fut_calm, calm_emit_error.
  - apply fut_bind; [apply fut_calm, calm_look|]. intros [c|].
    + apply fut_bind; [apply fut_upd|]. intros _. apply G, fut_emit. cbn. auto.
    + apply G, fut_calm, calm_emit_error.
Qed.

Theorem listen_fut es : fut (listen E es).
Proof.
  induction es as [|e es IH]; cbn [listen]; [apply fut_ret|].
  apply fut_bind; [apply fut_step|]. intros [|]; [exact IH|apply fut_ret].
Qed.

End More.
