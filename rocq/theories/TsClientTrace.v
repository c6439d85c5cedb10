(** What the invariant of TsClientProofs.v says about traces. *)
From Coq Require Import List NArith Arith Bool Lia.
From Verif Require Import Bytes WireModel FrameModel TsModel TsReader TsClientModel TsClientProofs.
Import ListNotations.
Open Scope N_scope.

Section Trace.
Variable E : tenv.
Local Notation M := (t_msg E).
Local Notation tev := (tev M).
Local Notation tst := (tst M).

(** The step in which an event happened. *)
Lemma trun_split ls s tr : trun E ls s tr -> forall p (e : tev) q, tr = p ++ e :: q ->
  exists ls1 s1 tr1 l s2 e1 e2,
    trun E ls1 s1 tr1 /\ fire E s1 l = Some (s2, e1 ++ e :: e2) /\ p = tr1 ++ e1 /\
    exists q', q = e2 ++ q'.
Proof.
  induction 1 as [|ls s tr l s' es R IH F]; intros p e q Q.
  - destruct p; discriminate Q.
  - destruct (Nat.lt_ge_cases (length p) (length tr)) as [L|L].
    + assert (exists q0, tr = p ++ e :: q0 /\ q = q0 ++ es) as (q0 & Q1 & Q2).
      { assert (K : firstn (length p) tr = p).
        { apply (f_equal (firstn (length p))) in Q.
          rewrite firstn_app, (firstn_app (length p) p), Nat.sub_diag, firstn_all in Q.
          replace (length p - length tr)%nat with O in Q by lia. cbn [firstn] in Q.
          rewrite !app_nil_r in Q. exact Q. }
        rewrite <- (firstn_skipn (length p) tr), K, <- app_assoc in Q.
        apply app_inv_head in Q.
        destruct (skipn (length p) tr) as [|x t] eqn:T.
        - apply (f_equal (@length _)) in T. rewrite skipn_length in T. cbn [length] in T. lia.
        - cbn [app] in Q. injection Q as -> <-. exists t. split; [|reflexivity].
          rewrite <- K at 1. rewrite <- T. symmetry. apply firstn_skipn. }
      destruct (IH p e q0 Q1) as (ls1 & s1 & tr1 & l1 & s2 & e1 & e2 & A & B & C & q' & D).
      exists ls1, s1, tr1, l1, s2, e1, e2. repeat split; auto. exists (q' ++ es).
      rewrite Q2, D, app_assoc. reflexivity.
    + assert (exists e1, p = tr ++ e1 /\ es = e1 ++ e :: q) as (e1 & Q1 & Q2).
      { exists (skipn (length tr) p).
        assert (K : firstn (length tr) p = tr).
        { apply (f_equal (firstn (length tr))) in Q.
          rewrite (firstn_app (length tr) p), firstn_app, Nat.sub_diag, firstn_all in Q.
          replace (length tr - length p)%nat with O in Q by lia. cbn [firstn] in Q.
          rewrite !app_nil_r in Q. symmetry. exact Q. }
        split.
        - rewrite <- K at 1. symmetry. apply firstn_skipn.
        - rewrite <- (firstn_skipn (length tr) p), K, <- app_assoc in Q.
          apply app_inv_head in Q. exact Q. }
      subst es. exists ls, s, tr, l, s', e1, q. repeat split; auto. exists []. rewrite app_nil_r. reflexivity.
Qed.

Lemma in_life a tr (e : tev) : about E a e = true -> (In e (life E a tr) <-> In e tr).
Proof. intro H. unfold life. rewrite filter_In. tauto. Qed.

(** ** What a step may emit *)

Lemma begin_emits (s s' : tst) a w r es : begin E s a w r = Some (s', es) ->
  (es = [VCall a w; VNum a (c_seq s) r] \/
   exists e, es = [VCall a w; VNum a (c_seq s) r; VRet a (RetErr e)]) /\
  (r = SOk -> c_seq s < 2 ^ 32).
Proof.
  unfold begin. intro H. destruct (c_act s a); [discriminate H|].
  destruct r.
  - injection H as _ <-. split; [right; eauto|discriminate].
  - destruct (2 ^ 32 <=? c_seq s); [discriminate H|].
    destruct (c_pend s (c_seq s)); injection H as _ <-; (split; [right; eauto|discriminate]).
  - destruct (2 ^ 32 <=? c_seq s) eqn:L; [discriminate H|]. apply N.leb_gt in L.
    destruct (c_pend s (c_seq s)); [discriminate H|]. injection H as _ <-. auto.
Qed.

Lemma send_emits (s s' : tst) a w o r es : send E s a w o r = Some (s', es) ->
  (es = [VCall a w; VNum a (c_seq s) r] \/
   (exists e, es = [VCall a w; VNum a (c_seq s) r; VRet a (RetErr e)]) \/
   exists e, es = [VCall a w; VRet a (RetErr e)]) /\
  (r = SOk -> In (VNum a (c_seq s) r) es -> c_seq s < 2 ^ 32).
Proof.
  unfold send. intro H. destruct (c_act s a); [discriminate H|]. destruct (c_obj s o).
  - apply begin_emits in H. cbn [set_obj c_seq] in H. destruct H as ([H|H] & L); auto.
  - injection H as _ <-. split; [eauto|]. intros _ [C|[C|[]]]; discriminate C.
  - injection H as _ <-. split; [eauto|]. intros _ [C|[C|[]]]; discriminate C.
Qed.

Lemma resume_emits (s s' : tst) a w m es : resume E s a w m = (s', es) ->
  es = [] \/ (exists r, es = [VRet a r]) \/
  exists u, w = WHash u /\ t_hash E m = Some None /\ es = [VRet a (RetHash); VReady u].
Proof.
  unfold resume. intro H. destruct w as [auto|u|q o|b o].
  - destruct (t_self E m); [|injection H as _ <-; eauto].
    destruct (c_uuid _); injection H as _ <-; eauto.
  - destruct (t_hash E m) as [[t|]|] eqn:T; injection H as _ <-; eauto 6.
  - destruct (c_obj s o); injection H as _ <-; eauto.
  - destruct (c_obj s o); injection H as _ <-; eauto.
Qed.

(** the event is one of those that [begin] and [send] emit *)
Definition calling (e : tev) : Prop :=
  match e with VCall _ _ | VNum _ _ _ | VRet _ _ => True | _ => False end.

Lemma begin_calling (s s' : tst) a w r es e : begin E s a w r = Some (s', es) -> In e es -> calling e.
Proof.
  intros H I. apply begin_emits in H as ([->|(x & ->)] & _); cbn [In] in I;
    repeat destruct I as [<-|I]; try exact Logic.I; destruct I.
Qed.
Lemma send_calling (s s' : tst) a w o r es e : send E s a w o r = Some (s', es) -> In e es -> calling e.
Proof.
  intros H I. apply send_emits in H as ([->|[(x & ->)|(x & ->)]] & _); cbn [In] in I;
    repeat destruct I as [<-|I]; try exact Logic.I; destruct I.
Qed.

(** [fire] by cases, with what it emits *)
Lemma fire_emits (s s' : tst) l es : fire E s l = Some (s', es) ->
  (exists a w r s1, (l = LSend a w r \/ l = LAssign a r \/ l = LConnected a r \/ exists b, l = LHash b a r) /\
     (exists cs, (es = cs \/ es = cs ++ [VConnected]) /\
        (forall e, In e cs -> calling e) /\
        (begin E s1 a w r = Some (s', cs) \/ exists o, send E s1 a w o r = Some (s', cs)) /\
        c_seq s1 = c_seq s)) \/
  (exists a w n m, l = LRun a /\ c_act s a = Some (w, TGot n m) /\ resume E s a w m = (s', es)) \/
  (exists h m q, l = LNext /\ c_drain s = true /\ rb_queue (c_buf s) = (h, m) :: q /\
     c_buf s' = mkBuf (rb_buf (c_buf s)) q /\
     ((exists a, c_pend s (h_seq h) = Some a /\ es = [VRead h m; VMatch a (h_seq h) m]) \/
      (c_pend s (h_seq h) = None /\
       es = [VRead h m; match t_broadcast E m with Some b => VBroadcast b m | None => VStray m end]))) \/
  (l = LNext /\ rb_queue (c_buf s) = [] /\ es = [] /\ s' = set_buf s (c_buf s) false) \/
  (exists data fuel o b, l = LData data fuel /\ c_drain s = false /\
     ts_chunk (t_get E) (t_sig E) fuel (c_buf s) data = Some (o, b) /\
     s' = set_buf s b (match o with TReturned 0 => true | _ => false end) /\ es = [VChunk data o]) \/
  (l = LDisconnected /\ es = [VDisconnected]) \/ (l = LError /\ es = [VError]) \/
  (exists o, l = LDestroy o /\ es = []).
Proof.
  intro F. destruct l; cbn [fire] in F.
  - left. destruct w as [| |q o|b o]; try discriminate F.
    + exists a, (WReq q o), r, s. split; [auto|]. exists es. repeat split; eauto.
      intros e H. eapply send_calling; eauto.
    + exists a, (WBeacon b o), r, s. split; [auto|]. exists es. repeat split; eauto.
      intros e H. eapply send_calling; eauto.
  - left. exists a, (WAssign false), r, s. split; [auto|]. exists es. repeat split; eauto.
    intros e H. eapply begin_calling; eauto.
  - injection F as <- <-. right. right. right. right. right. right. right. eauto.
  - left. destruct (c_drain s); [discriminate F|].
    destruct (begin E s a (WAssign true) r) as [[s1 es1]|] eqn:B; [|discriminate F].
    injection F as <- <-. exists a, (WAssign true), r, s. split; [auto|]. exists es1.
    repeat split; eauto. intros e H. eapply begin_calling; eauto.
  - destruct (c_drain s); [discriminate F|]. injection F as <- <-.
    right. right. right. right. right. left. auto.
  - destruct (c_drain s); [discriminate F|]. injection F as <- <-.
    right. right. right. right. right. right. left. auto.
  - destruct (c_drain s) eqn:D; [discriminate F|].
    destruct (ts_chunk (t_get E) (t_sig E) fuel (c_buf s) data) as [[o b]|] eqn:C; [|discriminate F].
    injection F as <- <-. right. right. right. right. left. exists data, fuel, o, b. auto.
  - destruct (c_drain s) eqn:D; [|discriminate F].
    destruct (rb_queue (c_buf s)) as [|[h m] q] eqn:Q.
    + injection F as <- <-. right. right. right. left. auto.
    + right. right. left. exists h, m, q. cbn [set_buf c_pend c_act] in F.
      destruct (c_pend s (h_seq h)) as [a|] eqn:P.
      * destruct (c_act s a) as [[w g]|] eqn:A; [|discriminate F].
        injection F as <- <-. repeat split; auto. left. eauto.
      * destruct (t_broadcast E m) as [b|]; injection F as <- <-; repeat split; auto.
  - destruct (c_drain s); [discriminate F|].
    destruct (c_act s a) as [[w [|n m| |]]|] eqn:A; try discriminate F.
    injection F as F. right. left. exists a, w, n, m. auto.
  - destruct (c_drain s); [discriminate F|].
    destruct (c_act s a) as [[w [| |u|]]|] eqn:A; try discriminate F.
    left. exists b, (WHash u), r, (set_act s a w (TDone)). split; [eauto 6|]. exists es.
    repeat split; eauto. intros e H. eapply begin_calling; eauto.
Qed.

Ltac emits F :=
  apply fire_emits in F as [(fa & fw & fr & fs & Hl & cs & Hes & Hc & Hb & Hs)|
    [(fa & fw & fn & fm & Hl & Ha & Hr)|[(fh & fm & fq & Hl & Hd & Hq & Hb & Hx)|[(Hl & Hq & Hes & Hs)|
    [(data & fuel & fo & fb & Hl & Hd & Ht & Hs & Hes)|[(Hl & Hes)|[(Hl & Hes)|(fo & Hl & Hes)]]]]]]].

(** a response is matched right after it is read *)
Lemma match_after_read ls s tr a n m p q : trun E ls s tr -> tr = p ++ VMatch a n m :: q ->
  exists p' h, p = p' ++ [VRead h m] /\ h_seq h = n.
Proof.
  intros R Q. destruct (trun_split _ _ _ R _ _ _ Q) as (ls1 & s1 & tr1 & l & s2 & e1 & e2 & R1 & F & P & _).
  assert (IN : In (VMatch a n m) (e1 ++ VMatch a n m :: e2)) by (apply in_elt).
  remember (e1 ++ VMatch a n m :: e2) as es eqn:ES.
  emits F.
  - exfalso. destruct Hes as [->| ->]; [destruct (Hc _ IN)|].
    apply in_app_iff in IN as [IN|[IN|[]]]; [destruct (Hc _ IN)|discriminate IN].
  - exfalso. destruct (resume_emits _ _ _ _ _ _ Hr) as [->|[(r & ->)|(u & _ & _ & ->)]];
      cbn [In] in IN; repeat destruct IN as [IN|IN]; try discriminate IN; destruct IN.
  - destruct Hx as [(fb & Hp & ->)|(Hp & ->)].
    + assert (e1 = [VRead fh fm] /\ VMatch a n m = VMatch fb (h_seq fh) fm) as (-> & X).
      { destruct e1 as [|x [|y e1]]; [discriminate ES| |].
        - cbn in ES. injection ES; intros; subst; auto.
        - exfalso. cbn in ES. injection ES as _ _ C. destruct e1; discriminate C. }
      injection X as -> -> ->. exists tr1, fh. rewrite P. auto.
    + exfalso. cbn [In] in IN. destruct (t_broadcast E fm); repeat destruct IN as [IN|IN];
        try discriminate IN; destruct IN.
  - subst es. destruct e1; discriminate Hes.
  - exfalso. rewrite Hes in IN. destruct IN as [IN|[]]. discriminate IN.
  - exfalso. rewrite Hes in IN. destruct IN as [IN|[]]. discriminate IN.
  - exfalso. rewrite Hes in IN. destruct IN as [IN|[]]. discriminate IN.
  - exfalso. rewrite Hes in IN. destruct IN.
Qed.


(** ** Numbers *)

Lemma num_position ls s tr a n r p q : trun E ls s tr -> tr = p ++ VNum a n r :: q ->
  n = 1 + N.of_nat (length (nums E p)) /\ (r = SOk -> n < 2 ^ 32).
Proof.
  intros R Q. split.
  - pose proof (i_nums E _ _ (trun_inv E _ _ _ R)) as H. rewrite Q, nums_app in H.
    cbn [nums flat_map app] in H. fold (nums E q) in H.
    assert (X : nth_error (nums E p ++ n :: nums E q) (length (nums E p)) = Some n).
    { rewrite nth_error_app2, Nat.sub_diag by lia. reflexivity. }
    rewrite H in X. rewrite nth_error_map in X.
    destruct (nth_error (seq 1 (length (nums E p ++ n :: nums E q))) (length (nums E p))) as [k|] eqn:K;
      [|discriminate X].
    injection X as X.
    assert (L : (length (nums E p) < length (nums E p ++ n :: nums E q))%nat)
      by (rewrite app_length; cbn [length]; lia).
    assert (K2 : k = (1 + length (nums E p))%nat).
    { apply nth_error_nth with (d := O) in K. rewrite seq_nth in K by exact L. lia. }
    lia.
  - intros ->. destruct (trun_split _ _ _ R _ _ _ Q) as (ls1 & s1 & tr1 & l & s2 & e1 & e2 & R1 & F & P & _).
    assert (IN : In (VNum a n SOk) (e1 ++ VNum a n SOk :: e2)) by (apply in_elt).
    remember (e1 ++ VNum a n SOk :: e2) as es eqn:ES.
    emits F.
    + assert (IC : In (VNum a n SOk) cs).
      { destruct Hes as [->| ->]; [exact IN|].
        apply in_app_iff in IN as [IN|[IN|[]]]; [exact IN|discriminate IN]. }
      clear IN Hes. destruct Hb as [Hb|(o & Hb)].
      * apply begin_emits in Hb as ([->|(x & ->)] & L); cbn [In] in IC;
          repeat destruct IC as [IC|IC]; try discriminate IC; try (exfalso; exact IC);
          injection IC; intros; subst; auto.
      * apply send_emits in Hb as ([->|[(x & ->)|(x & ->)]] & L); cbn [In] in IC;
          repeat destruct IC as [IC|IC]; try discriminate IC; try (exfalso; exact IC);
          injection IC; intros; subst; apply L; cbn [In]; auto.
    + exfalso. destruct (resume_emits _ _ _ _ _ _ Hr) as [->|[(r & ->)|(u & _ & _ & ->)]];
        cbn [In] in IN; repeat destruct IN as [IN|IN]; try discriminate IN; destruct IN.
    + exfalso. destruct Hx as [(fb & Hp & ->)|(Hp & ->)]; cbn [In] in IN.
      * repeat destruct IN as [IN|IN]; try discriminate IN; destruct IN.
      * destruct (t_broadcast E fm); repeat destruct IN as [IN|IN]; try discriminate IN; destruct IN.
    + exfalso. rewrite Hes in IN. destruct IN.
    + exfalso. rewrite Hes in IN. destruct IN as [IN|[]]. discriminate IN.
    + exfalso. rewrite Hes in IN. destruct IN as [IN|[]]. discriminate IN.
    + exfalso. rewrite Hes in IN. destruct IN as [IN|[]]. discriminate IN.
    + exfalso. rewrite Hes in IN. destruct IN.
Qed.

(** ** The life of a promise *)

(** a promise is settled only after its response was matched, unless its message
    was never sent *)
Lemma life_cases ls s tr a : trun E ls s tr ->
  life E a tr = [] \/
  (exists w, life E a tr = [VCall a w; VRet a (RetErr EBusy)] \/
             life E a tr = [VCall a w; VRet a (RetErr EGone)]) \/
  (exists w n r e, r <> SOk /\ (e = EPack \/ e = ESend) /\
     life E a tr = [VCall a w; VNum a n r; VRet a (RetErr e)]) \/
  (exists w n, life E a tr = [VCall a w; VNum a n SOk]) \/
  (exists w n m, life E a tr = [VCall a w; VNum a n SOk; VMatch a n m]) \/
  (exists w n m r, fits E w m r /\
     life E a tr = [VCall a w; VNum a n SOk; VMatch a n m; VRet a r]).
Proof.
  intro R. pose proof (i_shape E _ _ (trun_inv E _ _ _ R) a) as S.
  destruct (c_act s a) as [[w [n|n m|u|]]|]; cbn [shape] in S.
  - right. right. right. left. eauto.
  - right. right. right. right. left. eauto.
  - destruct S as (n & m & -> & U & S). right. right. right. right. right.
    exists (WAssign true), n, m, (RetUuid u). split; [|exact S]. cbn [fits]. rewrite U. auto.
  - destruct S as [(o & e & _ & [->| ->] & S)|[(n & r & e & Hr & He & S)|(n & m & r & Hf & S)]].
    + right. left. eauto.
    + right. left. eauto.
    + right. right. left. exists w, n, r, e. auto.
    + right. right. right. right. right. eauto 6.
  - auto.
Qed.

(** order is kept by [life] *)
Lemma life_before a tr (x y : tev) l1 l2 : about E a x = true -> about E a y = true ->
  life E a tr = l1 ++ x :: y :: l2 ->
  exists p q r, tr = p ++ x :: q ++ y :: r /\ life E a p = l1 /\ life E a q = [] /\ life E a r = l2.
Proof.
  intros Hx Hy. revert l1. induction tr as [|e tr IH]; intros l1 H; cbn [life filter] in H.
  - destruct l1; discriminate H.
  - fold (life E a tr) in H. destruct (about E a e) eqn:A.
    + destruct l1 as [|z l1]; cbn [app] in H.
      * injection H as -> H. clear IH.
        assert (exists q r, tr = q ++ y :: r /\ life E a q = [] /\ life E a r = l2) as (q & r & -> & Q & R).
        { clear A. induction tr as [|e tr IH]; cbn [life filter] in H; [discriminate H|].
          fold (life E a tr) in H. destruct (about E a e) eqn:A.
          - injection H as -> H. exists [], tr. auto.
          - destruct (IH H) as (q & r & -> & Q & R). exists (e :: q), r.
            cbn [life filter app]. rewrite A. auto. }
        exists [], q, r. auto.
      * injection H as -> H. destruct (IH l1 H) as (p & q & r & -> & P & Q & R).
        exists (z :: p), q, r. repeat split; auto. cbn [life filter]. rewrite A. fold (life E a p). congruence.
    + destruct (IH l1 H) as (p & q & r & -> & P & Q & R).
      exists (e :: p), q, r. repeat split; auto. cbn [life filter]. rewrite A. exact P.
Qed.

Lemma life_split a p (e : tev) q : about E a e = true ->
  life E a (p ++ e :: q) = life E a p ++ e :: life E a q.
Proof. intro A. rewrite life_app. unfold life at 2. cbn [filter]. rewrite A. reflexivity. Qed.

(** ** Objects *)

(** [o] will never be ready again *)
Definition dead (s : tst) (o : nat) : Prop :=
  c_obj s o <> OReady /\ forall a, ~ busy E (c_act s a) o.

Lemma begin_dead (s s' : tst) a w r es o : begin E s a w r = Some (s', es) -> on w <> Some o ->
  dead s o -> dead s' o.
Proof.
  unfold begin. intros H N (D1 & D2). destruct (c_act s a) eqn:A; [discriminate H|].
  assert (X : forall u p b d n, dead (set_act (mkTst n p u b d (c_obj s) (c_act s)) a w (TDone)) o).
  { intros. split; [exact D1|]. intros k B. cbn [set_act c_act] in B.
    destruct (Nat.eq_dec k a) as [->|Ne]; [rewrite upd_same in B; destruct B|].
    rewrite upd_other in B by exact Ne. exact (D2 k B). }
  assert (Y : forall u p b d n k, dead (set_act (mkTst n p u b d (c_obj s) (c_act s)) a w (TWait k)) o).
  { intros. split; [exact D1|]. intros j B. cbn [set_act c_act] in B.
    destruct (Nat.eq_dec j a) as [->|Ne]; [rewrite upd_same in B; exact (N B)|].
    rewrite upd_other in B by exact Ne. exact (D2 j B). }
  destruct r.
  - injection H as <- _. apply X.
  - destruct (2 ^ 32 <=? c_seq s); [discriminate H|].
    destruct (c_pend s (c_seq s)); injection H as <- _; apply X.
  - destruct (2 ^ 32 <=? c_seq s); [discriminate H|].
    destruct (c_pend s (c_seq s)); [discriminate H|]. injection H as <- _. apply Y.
Qed.

Lemma dead_obj (s : tst) o k x : dead s o -> (k = o -> x <> OReady) -> dead (set_obj s k x) o.
Proof.
  intros (D1 & D2) H. split; [|exact D2]. cbn [set_obj c_obj].
  destruct (Nat.eq_dec o k) as [->|N]; [rewrite upd_same; auto|rewrite upd_other; auto].
Qed.

Lemma dead_act (s : tst) o a w g : dead s o -> on w <> Some o \/ g = TDone \/ (exists u, g = THash u) ->
  dead (set_act s a w g) o.
Proof.
  intros (D1 & D2) H. split; [exact D1|]. intros k B. cbn [set_act c_act] in B.
  destruct (Nat.eq_dec k a) as [->|N].
  - rewrite upd_same in B. destruct H as [H|[->|(u & ->)]]; [|exact B|exact B].
    destruct g; cbn [busy] in B; try exact (H B); exact B.
  - rewrite upd_other in B by exact N. exact (D2 k B).
Qed.

Lemma send_dead (s s' : tst) a w k r es o : send E s a w k r = Some (s', es) -> on w = Some k ->
  dead s o -> dead s' o.
Proof.
  intros H W D. unfold send in H. destruct (c_act s a); [discriminate H|].
  destruct (c_obj s k) eqn:O.
  - assert (k <> o) by (intros ->; apply D; exact O).
    eapply begin_dead; [exact H| |].
    + rewrite W. congruence.
    + apply dead_obj; [exact D|congruence].
  - injection H as <- _. apply dead_act; auto.
  - injection H as <- _. apply dead_act; auto.
Qed.

Lemma fire_dead (s s' : tst) tr l es o : inv E s tr -> fire E s l = Some (s', es) ->
  dead s o -> dead s' o.
Proof.
  intros I F D. destruct l; cbn [fire] in F.
  - destruct w as [| |q k|b k]; try discriminate F; (eapply send_dead; [exact F| |exact D]; reflexivity).
  - eapply begin_dead; [exact F|discriminate|exact D].
  - injection F as <- <-. apply dead_obj; [exact D|discriminate].
  - destruct (c_drain s); [discriminate F|].
    destruct (begin E s a (WAssign true) r) as [[s1 es1]|] eqn:B; [|discriminate F].
    injection F as <- _. eapply begin_dead; [exact B|discriminate|exact D].
  - destruct (c_drain s); [discriminate F|]. injection F as <- _. exact D.
  - destruct (c_drain s); [discriminate F|]. injection F as <- _. exact D.
  - destruct (c_drain s); [discriminate F|].
    destruct (ts_chunk (t_get E) (t_sig E) fuel (c_buf s) data) as [[x b]|]; [|discriminate F].
    injection F as <- _. exact D.
  - destruct (c_drain s); [|discriminate F].
    destruct (rb_queue (c_buf s)) as [|[h m] q]; [injection F as <- _; exact D|].
    cbn [set_buf c_pend c_act] in F. destruct (c_pend s (h_seq h)) as [a|] eqn:P.
    + destruct (i_pend E _ _ I _ _ P) as (_ & w & A). rewrite A in F. injection F as <- _.
      destruct D as (D1 & D2). split; [exact D1|]. intros k B. cbn [set_act set_pend set_buf c_act] in B.
      destruct (Nat.eq_dec k a) as [->|N].
      * rewrite upd_same in B. apply (D2 a). rewrite A. exact B.
      * rewrite upd_other in B by exact N. exact (D2 k B).
    + destruct (t_broadcast E m); injection F as <- _; exact D.
  - destruct (c_drain s); [discriminate F|].
    destruct (c_act s a) as [[w [|n m| |]]|] eqn:A; try discriminate F.
    assert (NB : on w <> Some o) by (intro C; apply (proj2 D a); rewrite A; exact C).
    injection F as F. unfold resume in F. destruct w as [auto|u|q k|b k].
    + destruct (t_self E m); [|injection F as <- _; apply dead_act; auto].
      destruct (c_uuid _); injection F as <- _; (apply dead_act; [exact D|left; discriminate]).
    + destruct (t_hash E m) as [[?|]|]; injection F as <- _; (apply dead_act; auto).
    + destruct (c_obj s k); injection F as <- _; (apply dead_act; [|auto]); auto.
      apply dead_obj; [exact D|]. intros ->. destruct (NB eq_refl).
    + destruct (c_obj s k); injection F as <- _; (apply dead_act; [|auto]); auto.
      apply dead_obj; [exact D|]. intros ->. destruct (NB eq_refl).
  - destruct (c_drain s); [discriminate F|].
    destruct (c_act s a) as [[w [| |u|]]|] eqn:A; try discriminate F.
    eapply begin_dead; [exact F|discriminate|]. apply dead_act; auto.
Qed.

(** ** What is read *)

Definition reads (tr : list tev) : list (header * M) :=
  flat_map (fun e => match e with VRead h m => [(h, m)] | _ => [] end) tr.
Definition chunks (tr : list tev) : list bytes :=
  flat_map (fun e => match e with VChunk d _ => [d] | _ => [] end) tr.
Definition outcomes (tr : list tev) : list ts_outcome :=
  flat_map (fun e => match e with VChunk _ o => [o] | _ => [] end) tr.

Lemma ts_step_queue buf q k :
  ts_step (t_get E) (t_sig E) buf (k ++ q) =
  match ts_step (t_get E) (t_sig E) buf q with
  | RNext e b q' => RNext e b (k ++ q')
  | x => x
  end.
Proof.
  unfold ts_step. destruct (negb (has_header buf)); [reflexivity|].
  destruct (blen buf <? h_len (get_header buf) + header_len); [reflexivity|].
  destruct (negb (h_sig (get_header buf) =? t_sig E)); [reflexivity|].
  destruct (t_get E _ _); rewrite ?app_assoc; reflexivity.
Qed.

Lemma ts_loop_queue k fuel : forall errs buf q o b q',
  ts_loop (t_get E) (t_sig E) fuel errs buf q = Some (o, mkBuf b q') ->
  ts_loop (t_get E) (t_sig E) fuel errs buf (k ++ q) = Some (o, mkBuf b (k ++ q')).
Proof.
  induction fuel as [|f IH]; intros errs buf q o b q' H; cbn [ts_loop] in *; [discriminate H|].
  rewrite ts_step_queue. destruct (ts_step (t_get E) (t_sig E) buf q).
  - injection H as <- <- <-. reflexivity.
  - apply IH, H.
  - injection H as <- <- <-. reflexivity.
  - apply IH, H.
Qed.

Lemma ts_feeds_snoc st cs os st1 : ts_feeds (t_get E) (t_sig E) st cs os st1 -> forall c o st2,
  ts_returns (t_get E) (t_sig E) st1 c o st2 ->
  ts_feeds (t_get E) (t_sig E) st (cs ++ [c]) (os ++ [o]) st2.
Proof.
  induction 1; intros; cbn [app].
  - econstructor; [eassumption|constructor].
  - econstructor; eauto.
Qed.

Lemma trun_feeds ls s tr : trun E ls s tr ->
  ts_feeds (t_get E) (t_sig E) (mkBuf [] []) (chunks tr) (outcomes tr)
    (mkBuf (rb_buf (c_buf s)) (reads tr ++ rb_queue (c_buf s))) /\
  (c_drain s = false -> rb_queue (c_buf s) <> [] ->
   exists os o, outcomes tr = os ++ [o] /\ o <> TReturned 0).
Proof.
  assert (X : forall a b, outcomes (a ++ b) = outcomes a ++ outcomes b) by (intros; apply flat_map_app).
  assert (Y : forall a b, chunks (a ++ b) = chunks a ++ chunks b) by (intros; apply flat_map_app).
  assert (Z : forall a b, reads (a ++ b) = reads a ++ reads b) by (intros; apply flat_map_app).
  assert (B : forall (s s' : tst) a w r cs, begin E s a w r = Some (s', cs) ->
            c_buf s' = c_buf s /\ c_drain s' = c_drain s).
  { intros s0 s' a w r cs H. unfold begin in H. destruct (c_act s0 a); [discriminate H|].
    destruct r; try destruct (2 ^ 32 <=? c_seq s0); try discriminate H;
      try destruct (c_pend s0 (c_seq s0)); try discriminate H; injection H as <- _; auto. }
  assert (BS : forall (s s' : tst) a w o r cs, send E s a w o r = Some (s', cs) ->
            c_buf s' = c_buf s /\ c_drain s' = c_drain s).
  { intros s0 s' a w o r cs H. unfold send in H. destruct (c_act s0 a); [discriminate H|].
    destruct (c_obj s0 o); [apply B in H; exact H| |]; injection H as <- _; auto. }
  assert (C : forall cs, (forall e, In e cs -> calling e) -> outcomes cs = [] /\ chunks cs = [] /\ reads cs = []).
  { induction cs as [|e cs IH]; intro H; [auto|].
    destruct (IH (fun x Hx => H x (or_intror Hx))) as (H1 & H2 & H3).
    pose proof (H e (or_introl eq_refl)) as He. destruct e; try destruct He; auto. }
  induction 1 as [|ls s tr l s' es R (I1 & I2) F].
  - split; [constructor|]. intros _ H. destruct (H eq_refl).
  - assert (SAME : c_buf s' = c_buf s -> c_drain s' = c_drain s ->
        outcomes es = [] /\ chunks es = [] /\ reads es = [] ->
        ts_feeds (t_get E) (t_sig E) (mkBuf [] []) (chunks (tr ++ es)) (outcomes (tr ++ es))
          (mkBuf (rb_buf (c_buf s')) (reads (tr ++ es) ++ rb_queue (c_buf s'))) /\
        (c_drain s' = false -> rb_queue (c_buf s') <> [] ->
         exists os o, outcomes (tr ++ es) = os ++ [o] /\ o <> TReturned 0)).
    { intros -> -> (H1 & H2 & H3). rewrite X, Y, Z, H1, H2, H3, !app_nil_r. auto. }
    destruct l; cbn [fire] in F.
    + destruct w as [| |q k|b k]; try discriminate F;
        (destruct (BS _ _ _ _ _ _ _ F); apply SAME; auto; apply C; intros; eapply send_calling; eauto).
    + destruct (B _ _ _ _ _ _ F); apply SAME; auto; apply C; intros; eapply begin_calling; eauto.
    + injection F as <- <-. apply SAME; auto.
    + destruct (c_drain s) eqn:D; [discriminate F|].
      destruct (begin E s a (WAssign true) r) as [[s1 es1]|] eqn:G; [|discriminate F].
      injection F as <- <-. destruct (B _ _ _ _ _ _ G) as (G1 & G2). rewrite D in G2.
      apply SAME; auto. rewrite X, Y, Z.
      destruct (C es1) as (-> & -> & ->); [intros; eapply begin_calling; eauto|]. auto.
    + destruct (c_drain s) eqn:D; [discriminate F|]. injection F as <- <-. apply SAME; auto.
    + destruct (c_drain s) eqn:D; [discriminate F|]. injection F as <- <-. apply SAME; auto.
    + destruct (c_drain s) eqn:D; [discriminate F|].
      destruct (ts_chunk (t_get E) (t_sig E) fuel (c_buf s) data) as [[o b]|] eqn:T; [|discriminate F].
      injection F as <- <-. rewrite X, Y, Z. cbn [outcomes chunks reads flat_map app set_buf c_buf c_drain].
      rewrite app_nil_r. split.
      * eapply ts_feeds_snoc; [exact I1|]. exists fuel. unfold ts_chunk in *. cbn [rb_buf rb_queue].
        destruct b as [b' q']. cbn [rb_buf rb_queue]. apply ts_loop_queue. exact T.
      * intros H _. exists (outcomes tr), o. split; [reflexivity|]. intros ->. discriminate H.
    + destruct (c_drain s) eqn:D; [|discriminate F].
      destruct (rb_queue (c_buf s)) as [|[h m] q] eqn:Q.
      * injection F as <- <-. rewrite !app_nil_r in *. cbn [set_buf c_buf c_drain]. rewrite Q, app_nil_r.
        split; [exact I1|]. intros _ H. destruct (H eq_refl).
      * assert (G : c_buf s' = mkBuf (rb_buf (c_buf s)) q /\ c_drain s' = true /\
                    exists e, es = [VRead h m; e] /\
                      outcomes [e] = [] /\ chunks [e] = [] /\ reads [e] = []).
        { cbn [set_buf c_pend c_act] in F. destruct (c_pend s (h_seq h)) as [a|].
          - destruct (c_act s a) as [[w g]|]; [|discriminate F]. injection F as <- <-. eauto 8.
          - destruct (t_broadcast E m); injection F as <- <-; eauto 8. }
        destruct G as (-> & -> & e & -> & H1 & H2 & H3). split; [|discriminate].
        change [VRead h m; e] with ([VRead h m] ++ [e]).
        rewrite !X, !Y, !Z, H1, H2, H3. cbn [outcomes chunks reads flat_map app rb_buf rb_queue].
        rewrite !app_nil_r, <- app_assoc. exact I1.
    + destruct (c_drain s) eqn:D; [discriminate F|].
      destruct (c_act s a) as [[w [|n m| |]]|] eqn:A; try discriminate F. injection F as F.
      assert (G : c_buf s' = c_buf s /\ c_drain s' = c_drain s).
      { unfold resume in F. destruct w as [auto|u|q k|b k].
        - destruct (t_self E m); [destruct (c_uuid _)|]; injection F as <- _; auto.
        - destruct (t_hash E m) as [[?|]|]; injection F as <- _; auto.
        - destruct (c_obj s k); injection F as <- _; auto.
        - destruct (c_obj s k); injection F as <- _; auto. }
      destruct G as (G1 & G2). rewrite D in G2. apply SAME; auto.
      destruct (resume_emits _ _ _ _ _ _ F) as [->|[(r & ->)|(u & _ & _ & ->)]]; auto.
    + destruct (c_drain s) eqn:D; [discriminate F|].
      destruct (c_act s a) as [[w [| |u|]]|] eqn:A; try discriminate F.
      destruct (B _ _ _ _ _ _ F) as (G1 & G2). cbn [set_act c_buf c_drain] in G1, G2. rewrite D in G2.
      apply SAME; auto. apply C. intros; eapply begin_calling; eauto.
Qed.

(** ** The handshake *)

Lemma begin_first (s s' : tst) a w r es b v e1 e2 : begin E s a w r = Some (s', es) ->
  es = e1 ++ VCall b v :: e2 -> e1 = [] /\ a = b /\ w = v.
Proof.
  intros H Q. apply begin_emits in H as ([->|(x & ->)] & _).
  - destruct e1 as [|x1 [|x2 [|x3 e1]]]; cbn [app] in Q; try discriminate Q.
    injection Q as -> -> _. auto.
  - destruct e1 as [|x1 [|x2 [|x3 [|x4 e1]]]]; cbn [app] in Q; try discriminate Q.
    injection Q as -> -> _. auto.
Qed.

Lemma send_first (s s' : tst) a w o r es b v e1 e2 : send E s a w o r = Some (s', es) ->
  es = e1 ++ VCall b v :: e2 -> e1 = [] /\ a = b /\ w = v.
Proof.
  intros H Q. apply send_emits in H as ([->|[(x & ->)|(x & ->)]] & _).
  - destruct e1 as [|x1 [|x2 [|x3 e1]]]; cbn [app] in Q; try discriminate Q.
    injection Q as -> -> _. auto.
  - destruct e1 as [|x1 [|x2 [|x3 [|x4 e1]]]]; cbn [app] in Q; try discriminate Q.
    injection Q as -> -> _. auto.
  - destruct e1 as [|x1 [|x2 [|x3 e1]]]; cbn [app] in Q; try discriminate Q.
    injection Q as -> -> _. auto.
Qed.

(** which step makes the promises of the handshake *)
Lemma call_by (s s' : tst) l e1 e2 b w : fire E s l = Some (s', e1 ++ VCall b w :: e2) ->
  e1 = [] /\
  match w with
  | WHash u => exists a v r, l = LHash a b r /\ c_act s a = Some (v, THash u)
  | WAssign true => exists r, l = LConnected b r
  | WAssign false => exists r, l = LAssign b r
  | _ => exists r, l = LSend b w r
  end.
Proof.
  intro F. remember (e1 ++ VCall b w :: e2) as es eqn:ES.
  assert (IN : In (VCall b w) es) by (rewrite ES; apply in_elt).
  destruct l; cbn [fire] in F.
  - destruct w0 as [| |q k|c k]; try discriminate F;
      (destruct (send_first _ _ _ _ _ _ _ _ _ _ _ F ES) as (-> & -> & <-); eauto).
  - destruct (begin_first _ _ _ _ _ _ _ _ _ _ F ES) as (-> & -> & <-). eauto.
  - injection F as <- <-. destruct IN.
  - destruct (c_drain s); [discriminate F|].
    destruct (begin E s a (WAssign true) r) as [[s1 es1]|] eqn:B; [|discriminate F].
    injection F as <- Q. rewrite <- Q in ES.
    assert (exists z, es1 = e1 ++ VCall b w :: z) as (z & Z).
    { destruct (begin_emits _ _ _ _ _ _ B) as ([Y|(x & Y)] & _); rewrite Y in *.
      - destruct e1 as [|x1 [|x2 [|x3 [|x4 e1]]]]; cbn [app] in ES; try discriminate ES.
        injection ES as <- <- _. eexists. reflexivity.
      - destruct e1 as [|x1 [|x2 [|x3 [|x4 [|x5 e1]]]]]; cbn [app] in ES; try discriminate ES.
        injection ES as <- <- _. eexists. reflexivity. }
    destruct (begin_first _ _ _ _ _ _ _ _ _ _ B Z) as (-> & -> & <-). eauto.
  - destruct (c_drain s); [discriminate F|]. injection F as <- <-. destruct IN as [IN|[]]. discriminate IN.
  - destruct (c_drain s); [discriminate F|]. injection F as <- <-. destruct IN as [IN|[]]. discriminate IN.
  - destruct (c_drain s); [discriminate F|].
    destruct (ts_chunk _ _ _ _ _) as [[? ?]|]; [|discriminate F].
    injection F as <- <-. destruct IN as [IN|[]]. discriminate IN.
  - exfalso. destruct (c_drain s); [|discriminate F].
    destruct (rb_queue (c_buf s)) as [|[h m] q]; [injection F as <- <-; destruct IN|].
    cbn [set_buf c_pend c_act] in F. destruct (c_pend s (h_seq h)) as [a|].
    + destruct (c_act s a) as [[w' g]|]; [|discriminate F]. injection F as <- <-.
      destruct IN as [IN|[IN|[]]]; discriminate IN.
    + destruct (t_broadcast E m); injection F as <- <-; destruct IN as [IN|[IN|[]]]; discriminate IN.
  - exfalso. destruct (c_drain s); [discriminate F|].
    destruct (c_act s a) as [[v [|n m| |]]|] eqn:A; try discriminate F. injection F as F.
    destruct (resume_emits _ _ _ _ _ _ F) as [->|[(r & ->)|(u & _ & _ & ->)]];
      cbn [In] in IN; repeat destruct IN as [IN|IN]; try discriminate IN; destruct IN.
  - destruct (c_drain s); [discriminate F|].
    destruct (c_act s a) as [[v [| |u|]]|] eqn:A; try discriminate F.
    destruct (begin_first _ _ _ _ _ _ _ _ _ _ F ES) as (-> & -> & <-). split; [reflexivity|]. eauto.
Qed.

Lemma ready_by (s s' : tst) l e1 e2 u : fire E s l = Some (s', e1 ++ VReady u :: e2) ->
  exists b n m, l = LRun b /\ c_act s b = Some (WHash u, TGot n m) /\ t_hash E m = Some None /\
    e1 = [VRet b (RetHash)].
Proof.
  intro F. remember (e1 ++ VReady u :: e2) as es eqn:ES.
  assert (IN : In (VReady u) es) by (rewrite ES; apply in_elt).
  emits F.
  - exfalso. destruct Hes as [->| ->]; [destruct (Hc _ IN)|].
    apply in_app_iff in IN as [IN|[IN|[]]]; [destruct (Hc _ IN)|discriminate IN].
  - destruct (resume_emits _ _ _ _ _ _ Hr) as [->|[(r & ->)|(v & -> & T & ->)]].
    + destruct IN.
    + destruct IN as [IN|[]]. discriminate IN.
    + destruct IN as [IN|[IN|[]]]; [discriminate IN|]. injection IN as ->.
      exists fa, fn, fm. repeat split; auto.
      destruct e1 as [|x [|y e1]]; cbn [app] in ES; try discriminate ES.
      * injection ES as <- _. reflexivity.
      * injection ES as _ _ C. destruct e1; discriminate C.
  - exfalso. destruct Hx as [(fb & Hp & ->)|(Hp & ->)]; cbn [In] in IN.
    + repeat destruct IN as [IN|IN]; try discriminate IN; destruct IN.
    + destruct (t_broadcast E fm); repeat destruct IN as [IN|IN]; try discriminate IN; destruct IN.
  - exfalso. rewrite Hes in IN. destruct IN.
  - exfalso. rewrite Hes in IN. destruct IN as [IN|[]]. discriminate IN.
  - exfalso. rewrite Hes in IN. destruct IN as [IN|[]]. discriminate IN.
  - exfalso. rewrite Hes in IN. destruct IN as [IN|[]]. discriminate IN.
  - exfalso. rewrite Hes in IN. destruct IN.
Qed.

End Trace.
