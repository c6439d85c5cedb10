(** What an application can rely on in a generated TypeScript client
    (C78 - C84).  [trun E ls s tr]: [tr] is what happens in the execution with the
    steps [ls]; all theorems are about all executions. *)
From Coq Require Import List NArith Arith Bool Lia.
From Coq Require Import Strings.Byte.
From Verif Require Import Bytes WireModel FrameModel FrameProofs TsModel TsReader.
From Verif Require Import TsClientModel TsClientProofs TsClientTrace.
Import ListNotations.
Open Scope N_scope.

(** ** A concrete protocol for the examples

    A message is its id and its body: 1 SelfKeyResponse, 2 HashResponse, 3
    BeaconConfirmation, 4 and 5 the answers of request 0, 6 a broadcast; bodies
    starting with 255 cannot be decoded, other ids are unknown. *)
Definition demo_get (id : N) (body : bytes) : res (N * bytes) err :=
  if 6 <? id then Panic
  else match body with xff :: _ => Err EMissing | _ => Ok (id, body) end.
Definition demo_env : tenv :=
  mkTenv (N * bytes) demo_get 7
    (fun m => if fst m =? 1 then Some (snd m) else None)
    (fun m => if fst m =? 2 then Some (match snd m with [] => None | t => Some t end) else None)
    (fun m => if fst m =? 3 then Some (match snd m with [] => None | t => Some t end) else None)
    (fun r m => match r with
                | O => if fst m =? 4 then Some 0%nat else if fst m =? 5 then Some 1%nat else None
                | _ => None
                end)
    (fun m => if fst m =? 6 then Some 0%nat else None)
    (fun u => match u with [] => true | _ => false end).
Definition demo_msg (id n : N) (body : bytes) : bytes := pack id 7 n 0 body.
Definition demo_run (ls : list label) : option (tst (t_msg demo_env) * list (tev (t_msg demo_env))) :=
  texec demo_env (tinit) ls [].
(** one piece of data holding [k] messages, and what the client does with it *)
Definition demo_data (d : bytes) (k : nat) : list label :=
  LData d 9 :: repeat LNext (S k).
(** a whole handshake by promises [a] and [b], with numbers [n] and [n + 1] *)
Definition demo_greet (a b : nat) (n : N) (u : bytes) : list label :=
  [LConnected a SOk] ++ demo_data (demo_msg 1 n u) 1 ++ [LRun a; LHash a b SOk] ++
  demo_data (demo_msg 2 (n + 1) []) 1 ++ [LRun b].

Lemma run_trun ls s tr : demo_run ls = Some (s, tr) -> trun demo_env ls s tr.
Proof. intro H. exact (texec_trun demo_env ls [] (tinit) [] s tr (trun_nil demo_env) H). Qed.

Lemma demo (P : tst (t_msg demo_env) -> list (tev (t_msg demo_env)) -> Prop) ls :
  match demo_run ls with Some (s, tr) => P s tr | None => False end ->
  exists ls s tr, trun demo_env ls s tr /\ P s tr.
Proof.
  destruct (demo_run ls) as [[s tr]|] eqn:R; [|intros []].
  intro H. exists ls, s, tr. split; [apply run_trun, R|exact H].
Qed.

Section Statements.
Variable E : tenv.

(** the object a call is made with *)
Definition call_on (w : what) (o : nat) : Prop :=
  exists k, w = WReq k o \/ w = WBeacon k o.

(** nothing is left to be done until something comes from outside *)
Definition at_rest (s : tst (t_msg E)) : Prop :=
  c_drain s = false /\
  forall a, match c_act s a with
            | Some (_, TGot _ _) | Some (_, THash _) => False
            | _ => True
            end.

Lemma on_call w o : on w = Some o <-> call_on w o.
Proof.
  split.
  - destruct w as [| |k p|k p]; intro H; try discriminate H; injection H as ->; exists k; auto.
  - intros (k & [->| ->]); reflexivity.
Qed.

(** ** C78: no two messages of a client carry the same number *)

Theorem C78_numbers_are_counted : forall ls s tr p a n r q,
  trun E ls s tr -> tr = p ++ VNum a n r :: q ->
  n = 1 + N.of_nat (length (filter (fun e => match e with VNum _ _ _ => true | _ => false end) p)) /\
  (r = SOk -> n < 2 ^ 32).
Proof.
  intros ls s tr p a n r q R Q. destruct (num_position E _ _ _ _ _ _ _ _ R Q) as (H & L).
  split; [|exact L]. rewrite H. f_equal. f_equal. clear.
  induction p as [|e p IH]; [reflexivity|].
  destruct e; cbn [nums flat_map filter app length]; try exact IH. f_equal. exact IH.
Qed.

Theorem C78_numbers_differ : forall ls s tr p q1 q2 a b n k r t,
  trun E ls s tr -> tr = p ++ VNum a n r :: q1 ++ VNum b k t :: q2 -> n < k.
Proof.
  intros ls s tr p q1 q2 a b n k r t R Q.
  destruct (C78_numbers_are_counted ls s tr p a n r _ R Q) as (H1 & _).
  assert (Q' : tr = (p ++ VNum a n r :: q1) ++ VNum b k t :: q2)
    by (rewrite Q, <- app_assoc; reflexivity).
  destruct (C78_numbers_are_counted ls s tr _ b k t _ R Q') as (H2 & _).
  rewrite filter_app, app_length in H2. cbn [filter length] in H2. lia.
Qed.

(** ** C79: a call ends with the response to its own message *)

(** If promise [a] ends otherwise than by a failure before its message was sent,
    then its message went out with a number [n], a message with that number was
    read after that and given to it, and the way it ends is the way the
    declaration of the call says for this message.  It ends once, and it is given
    one message only. *)
Theorem C79_own_answer : forall ls s tr p a r q,
  trun E ls s tr -> tr = p ++ VRet a r :: q ->
  (forall e, r = RetErr e -> e <> EBusy /\ e <> EGone /\ e <> EPack /\ e <> ESend) ->
  exists w n m h p1 p2 p3 p4,
    p = p1 ++ VCall a w :: p2 ++ VNum a n SOk :: p3 ++ VRead h m :: VMatch a n m :: p4 /\
    h_seq h = n /\
    match w with
    | WReq k _ => (exists i, t_answer E k m = Some i /\ r = RetAnswer i m) \/
                  (t_answer E k m = None /\ r = RetErr EUnexpected)
    | WBeacon _ _ => (t_beacon E m = Some None /\ r = RetBeacon) \/
                     (exists t, t_beacon E m = Some (Some t) /\ r = RetErr (EText t)) \/
                     (t_beacon E m = None /\ r = RetErr EUnexpected)
    | WAssign _ => (exists u, t_self E m = Some u /\ (r = RetUuid u \/ r = RetErr EUuid)) \/
                   (t_self E m = None /\ r = RetErr EUnexpected)
    | WHash _ => (t_hash E m = Some None /\ r = RetHash) \/
                 (exists t, t_hash E m = Some (Some t) /\ r = RetErr (EText t)) \/
                 (t_hash E m = None /\ r = RetErr EUnexpected)
    end /\
    (forall r', ~ In (VRet a r') (p ++ q)) /\
    (forall k m', In (VMatch a k m') tr -> k = n /\ m' = m).
Proof.
  intros ls s tr p a r q R Q Hr.
  assert (ab : forall x, about E a (VRet a x) = true) by (intro; apply Nat.eqb_refl).
  assert (LS : life E a tr = life E a p ++ VRet a r :: life E a q)
    by (rewrite Q; apply life_split, ab).
  destruct (life_cases E _ _ _ a R) as [C|[(w & [C|C])|[(w & n & x & e & _ & He & C)|[(w & n & C)|
    [(w & n & m & C)|(w & n & m & x & Hf & C)]]]]]; rewrite C in LS.
  - exfalso. destruct (life E a p); discriminate LS.
  - exfalso. destruct (life E a p) as [|? [|? [|? l]]]; cbn [app] in LS; try discriminate LS.
    injection LS as _ <- _. destruct (Hr EBusy eq_refl); congruence.
  - exfalso. destruct (life E a p) as [|? [|? [|? l]]]; cbn [app] in LS; try discriminate LS.
    injection LS as _ <- _. destruct (Hr EGone eq_refl) as (_ & K & _); congruence.
  - exfalso. destruct (life E a p) as [|? [|? [|? [|? l]]]]; cbn [app] in LS; try discriminate LS.
    injection LS as _ _ <- _. destruct (Hr e eq_refl) as (_ & _ & K1 & K2). destruct He; congruence.
  - exfalso. destruct (life E a p) as [|? [|? [|? l]]]; cbn [app] in LS; try discriminate LS.
  - exfalso. destruct (life E a p) as [|? [|? [|? [|? l]]]]; cbn [app] in LS; try discriminate LS.
  - destruct (life E a p) as [|x1 [|x2 [|x3 [|x4 [|x5 l]]]]] eqn:LP; cbn [app] in LS; try discriminate LS.
    injection LS as <- <- <- -> LQ. symmetry in LQ.
    assert (ac : about E a (VCall a w) = true) by (apply Nat.eqb_refl).
    assert (an : about E a (VNum a n SOk) = true) by (apply Nat.eqb_refl).
    assert (am : about E a (VMatch a n m) = true) by (apply Nat.eqb_refl).
    destruct (life_before E a p _ _ [] _ ac an LP) as (p1 & p2 & p3 & Hp & L1 & L2 & L3).
    assert (exists p4 p5, p3 = p4 ++ VMatch a n m :: p5) as (p4 & p5 & Hp3).
    { assert (IN : In (VMatch a n m) p3).
      { apply (in_life E a); [exact am|]. rewrite L3. left. reflexivity. }
      apply in_split in IN. exact IN. }
    assert (Q2 : tr = (p1 ++ VCall a w :: p2 ++ VNum a n SOk :: p4) ++ VMatch a n m :: (p5 ++ VRet a r :: q)).
    { rewrite Q, Hp, Hp3. rewrite <- !app_assoc. cbn [app]. rewrite <- !app_assoc. cbn [app].
      rewrite <- !app_assoc. reflexivity. }
    destruct (match_after_read E _ _ _ _ _ _ _ _ R Q2) as (p' & h & HP & Hh).
    assert (exists p6, p4 = p6 ++ [VRead h m]) as (p6 & Hp4).
    { destruct p4 as [|z z'] using rev_ind.
      - exfalso. apply (f_equal (fun l => last l (VError))) in HP. rewrite last_last in HP.
        rewrite app_comm_cons, app_assoc, last_last in HP. discriminate HP.
      - clear IHz'. exists z'. f_equal. f_equal.
        assert (HP' : (p1 ++ VCall a w :: p2 ++ VNum a n SOk :: z') ++ [z] = p' ++ [VRead h m]).
        { rewrite <- HP. rewrite <- !app_assoc. cbn [app]. rewrite <- !app_assoc. reflexivity. }
        apply app_inj_tail in HP'. apply HP'. }
    exists w, n, m, h, p1, p2, p6, p5. repeat split.
    + rewrite Hp, Hp3, Hp4. rewrite <- !app_assoc. reflexivity.
    + exact Hh.
    + destruct w as [auto|u|k o|k o]; cbn [fits] in Hf.
      * destruct (t_self E m) as [u|]; [left; eauto|right; auto].
      * destruct (t_hash E m) as [[t|]|]; eauto 6.
      * destruct Hf as [->|Hf]; [destruct (Hr EGone eq_refl) as (_ & K & _); congruence|].
        destruct (t_answer E k m) as [i|]; [left; eauto|right; auto].
      * destruct Hf as [->|Hf]; [destruct (Hr EGone eq_refl) as (_ & K & _); congruence|].
        destruct (t_beacon E m) as [[t|]|]; eauto 6.
    + intros r' IN. apply (in_life E a _ _ (ab r')) in IN. rewrite life_app, LP, LQ in IN.
      cbn [app In] in IN. repeat destruct IN as [IN|IN]; try discriminate IN; destruct IN.
    + apply (in_life E a) in H; [|apply Nat.eqb_refl]. rewrite C in H. cbn [In] in H.
      repeat destruct H as [H|H]; try discriminate H; try (exfalso; exact H). injection H; auto.
    + apply (in_life E a) in H; [|apply Nat.eqb_refl]. rewrite C in H. cbn [In] in H.
      repeat destruct H as [H|H]; try discriminate H; try (exfalso; exact H). injection H; auto.
Qed.

(** ** C80: does every call end? *)

(** At rest, a call has ended if a message with its number was read. *)
Theorem C80_answered_calls_end_partial : forall ls s tr p a n q h m,
  trun E ls s tr -> at_rest s ->
  tr = p ++ VNum a n SOk :: q -> In (VRead h m) q -> h_seq h = n ->
  exists r, In (VRet a r) q.
Proof.
  intros ls s tr p a n q h m R (_ & Rest) Q IN Hh.
  assert (an : about E a (VNum a n SOk) = true) by (apply Nat.eqb_refl).
  assert (LQ : life E a tr = life E a p ++ VNum a n SOk :: life E a q)
    by (rewrite Q; apply life_split, an).
  pose proof (i_shape E _ _ (trun_inv E _ _ _ R) a) as S.
  assert (DONE : forall r, In (VRet a r) tr -> In (VRet a r) q).
  { intros r H. apply (in_life E a) in H; [|apply Nat.eqb_refl].
    destruct (life_cases E _ _ _ a R) as [C|[(w & [C|C])|[(w & k & x & e & Hx & _ & C)|[(w & k & C)|
      [(w & k & m' & C)|(w & k & m' & x & Hf & C)]]]]]; rewrite C in LQ, H.
    - destruct (life E a p); discriminate LQ.
    - destruct (life E a p) as [|? [|? [|? l]]]; discriminate LQ.
    - destruct (life E a p) as [|? [|? [|? l]]]; discriminate LQ.
    - destruct (life E a p) as [|? [|? [|? [|? l]]]]; try discriminate LQ.
      cbn [app] in LQ. injection LQ; intros; subst. congruence.
    - cbn [In] in H. repeat destruct H as [H|H]; try discriminate H; destruct H.
    - cbn [In] in H. repeat destruct H as [H|H]; try discriminate H; destruct H.
    - destruct (life E a p) as [|? [|? [|? [|? [|? l]]]]]; try discriminate LQ.
      cbn [app] in LQ. injection LQ; intros. cbn [In] in H.
      repeat destruct H as [H|H]; try discriminate H; try (exfalso; exact H).
      injection H as <-. apply (in_life E a); [apply Nat.eqb_refl|].
      match goal with X : _ = life E a q |- _ => rewrite <- X end. cbn [In]. auto. }
  assert (MT : exists m', In (VMatch a n m') tr).
  { apply in_split in IN. destruct IN as (q1 & q2 & ->).
    assert (Q2 : tr = (p ++ VNum a n SOk :: q1) ++ VRead h m :: q2)
      by (rewrite Q, <- app_assoc; reflexivity).
    destruct (trun_split E _ _ _ R _ _ _ Q2) as (ls1 & s1 & tr1 & l & s2 & e1 & e2 & R1 & F & P & q' & Hq).
    assert (INr : In (VRead h m) (e1 ++ VRead h m :: e2)) by apply in_elt.
    remember (e1 ++ VRead h m :: e2) as es eqn:ES.
    apply fire_emits in F as [(fa & fw & fr & fs & Hl & cs & Hes & Hc & Hb & Hs)|
      [(fa & fw & fn & fm & Hl & Ha & Hr)|[(fh & fm & fq & Hl & Hd & Hqq & Hb & Hx)|[(Hl & Hqq & Hes & Hs)|
      [(data & fuel & fo & fb & Hl & Hd & Ht & Hs & Hes)|[(Hl & Hes)|[(Hl & Hes)|(fo & Hl & Hes)]]]]]]].
    - exfalso. destruct Hes as [->| ->]; [destruct (Hc _ INr)|].
      apply in_app_iff in INr as [INr|[INr|[]]]; [destruct (Hc _ INr)|discriminate INr].
    - exfalso. destruct (resume_emits E _ _ _ _ _ _ Hr) as [->|[(r & ->)|(u & _ & _ & ->)]];
        cbn [In] in INr; repeat destruct INr as [INr|INr]; try discriminate INr; destruct INr.
    - assert (e1 = [] /\ fh = h /\ fm = m) as (-> & -> & ->).
      { destruct Hx as [(fb & Hp & ->)|(Hp & ->)].
        - destruct e1 as [|x [|y e1]]; cbn [app] in ES; [injection ES; auto|discriminate ES|].
          injection ES as _ _ C. destruct e1; discriminate C.
        - destruct e1 as [|x [|y e1]]; cbn [app] in ES; [injection ES; auto| |].
          + destruct (t_broadcast E fm); discriminate ES.
          + injection ES as _ _ C. destruct e1; discriminate C. }
      rewrite app_nil_r in P. subst tr1.
      pose proof (trun_inv E _ _ _ R1) as I1. pose proof (i_shape E _ _ I1 a) as S1.
      assert (A1 : In (VNum a n SOk) (life E a (p ++ VNum a n SOk :: q1)))
        by (apply (in_life E a); [exact an|apply in_elt]).
      assert (LATE : forall m', In (VMatch a n m') (life E a (p ++ VNum a n SOk :: q1)) ->
                     exists m', In (VMatch a n m') tr).
      { intros m' H. apply in_life in H; [|apply Nat.eqb_refl]. exists m'. rewrite Q2.
        apply in_app_iff. left. exact H. }
      destruct (c_act s1 a) as [[w [k|k m'|u|]]|] eqn:AC; cbn [shape] in S1.
      + rewrite S1 in A1. cbn [In] in A1. destruct A1 as [A1|[A1|[]]]; [discriminate A1|].
        injection A1 as ->. pose proof (i_wait E _ _ I1 _ _ _ AC) as W.
        destruct Hx as [(fb & Hp & Hx)|(Hp & Hx)]; rewrite Hh in Hp; rewrite W in Hp; [|discriminate Hp].
        injection Hp as <-. exists m. rewrite Q2, Hq.
        rewrite Hx in ES. cbn [app] in ES. injection ES as <-. rewrite Hh.
        apply in_app_iff. right. right. left. reflexivity.
      + rewrite S1 in A1. cbn [In] in A1.
        repeat destruct A1 as [A1|A1]; try discriminate A1; try (exfalso; exact A1).
        injection A1 as ->. apply (LATE m'). rewrite S1. cbn [In]. auto.
      + destruct S1 as (k & m' & -> & _ & S1). rewrite S1 in A1. cbn [In] in A1.
        repeat destruct A1 as [A1|A1]; try discriminate A1; try (exfalso; exact A1).
        injection A1 as ->. apply (LATE m'). rewrite S1. cbn [In]. auto.
      + destruct S1 as [(o & e & _ & _ & S1)|[(k & r & e & Hr & _ & S1)|(k & m' & r & _ & S1)]];
          rewrite S1 in A1; cbn [In] in A1;
          repeat destruct A1 as [A1|A1]; try discriminate A1; try (exfalso; exact A1).
        * injection A1; intros; congruence.
        * injection A1 as ->. apply (LATE m'). rewrite S1. cbn [In]. auto.
      + rewrite S1 in A1. destruct A1.
    - exfalso. rewrite Hes in INr. destruct INr.
    - exfalso. rewrite Hes in INr. destruct INr as [INr|[]]. discriminate INr.
    - exfalso. rewrite Hes in INr. destruct INr as [INr|[]]. discriminate INr.
    - exfalso. rewrite Hes in INr. destruct INr as [INr|[]]. discriminate INr.
    - exfalso. rewrite Hes in INr. destruct INr. }
  destruct MT as (m' & MT). apply (in_life E a) in MT; [|apply Nat.eqb_refl].
  specialize (Rest a). destruct (c_act s a) as [[w [k|k m2|u|]]|] eqn:AC; cbn [shape] in S.
  - rewrite S in MT. cbn [In] in MT. repeat destruct MT as [MT|MT]; try discriminate MT; destruct MT.
  - destruct Rest.
  - destruct Rest.
  - destruct S as [(o & e & _ & _ & S)|[(k & r & e & Hr & _ & S)|(k & m2 & r & _ & S)]].
    + rewrite S in MT. cbn [In] in MT. repeat destruct MT as [MT|MT]; try discriminate MT; destruct MT.
    + rewrite S in MT. cbn [In] in MT. repeat destruct MT as [MT|MT]; try discriminate MT; destruct MT.
    + exists r. apply DONE. apply (in_life E a); [apply Nat.eqb_refl|]. rewrite S. cbn [In]. auto.
  - rewrite S in MT. destruct MT.
Qed.

(** Nothing else ends it: there are no timeouts, and the end of the connection
    does not count. *)
Theorem C80_unanswered_calls_wait : forall ls s tr a n,
  trun E ls s tr -> In (VNum a n SOk) tr ->
  (forall h m, In (VRead h m) tr -> h_seq h <> n) ->
  forall r, ~ In (VRet a r) tr.
Proof.
  intros ls s tr a n R N0 H r IN.
  assert (an : about E a (VNum a n SOk) = true) by (apply Nat.eqb_refl).
  assert (ar : about E a (VRet a r) = true) by (apply Nat.eqb_refl).
  apply (in_life E a _ _ an) in N0. apply (in_life E a _ _ ar) in IN.
  destruct (life_cases E _ _ _ a R) as [C|[(w & [C|C])|[(w & k & x & e & Hx & _ & C)|[(w & k & C)|
    [(w & k & m' & C)|(w & k & m' & x & Hf & C)]]]]];
    pose proof C as C'; rewrite C in N0, IN; cbn [In] in N0, IN;
    repeat destruct N0 as [N0|N0]; try discriminate N0; try (exfalso; exact N0);
    repeat destruct IN as [IN|IN]; try discriminate IN; try (exfalso; exact IN).
  - injection N0; intros; congruence.
  - injection N0 as ->.
    assert (M1 : In (VMatch a n m') tr).
    { apply (in_life E a); [apply Nat.eqb_refl|]. rewrite C. cbn [In]. auto. }
    apply in_split in M1. destruct M1 as (p & q & Q).
    destruct (match_after_read E _ _ _ _ _ _ _ _ R Q) as (p' & h & -> & Hh).
    apply (H h m'); [|exact Hh]. rewrite Q. apply in_app_iff. left. apply in_app_iff. right. left. reflexivity.
Qed.

(** ** C81: can a request object be used again? *)

Lemma busy_by (s s' : tst (t_msg E)) l e1 e2 b : fire E s l = Some (s', e1 ++ VRet b (RetErr EBusy) :: e2) ->
  exists v o r, l = LSend b v r /\ on v = Some o /\ c_obj s o = OPending /\
    e1 = [VCall b v] /\ e2 = [].
Proof.
  intro F. remember (e1 ++ VRet b (RetErr EBusy) :: e2) as es eqn:ES.
  assert (IN : In (VRet b (RetErr EBusy)) es) by (rewrite ES; apply in_elt).
  assert (B : forall (s s' : tst (t_msg E)) a w r cs, begin E s a w r = Some (s', cs) ->
     ~ In (VRet b (RetErr EBusy)) cs).
  { clear. intros s s' a w r cs H I. unfold begin in H. destruct (c_act s a); [discriminate H|].
    destruct r; try destruct (2 ^ 32 <=? c_seq s); try discriminate H;
      try destruct (c_pend s (c_seq s)); try discriminate H; injection H as _ <-;
      cbn [In] in I; repeat destruct I as [I|I]; try discriminate I; exact I. }
  destruct l; cbn [fire] in F.
  - assert (exists o, on w = Some o /\ send E s a w o r = Some (s', es)) as (o & W & F').
    { destruct w as [| |k o|k o]; try discriminate F; exists o; auto. }
    unfold send in F'. destruct (c_act s a); [discriminate F'|].
    destruct (c_obj s o) eqn:O.
    + destruct (B _ _ _ _ _ _ F' IN).
    + injection F' as <- Q. rewrite <- Q in *. destruct IN as [IN|[IN|[]]]; [discriminate IN|].
      injection IN as ->. exists w, o, r.
      destruct e1 as [|x [|y e1]]; cbn [app] in ES; try discriminate ES.
      * injection ES as <- <-. auto.
      * injection ES as _ _ C. destruct e1; discriminate C.
    + injection F' as <- <-. destruct IN as [IN|[IN|[]]]; discriminate IN.
  - destruct (B _ _ _ _ _ _ F IN).
  - injection F as <- <-. destruct IN.
  - destruct (c_drain s); [discriminate F|].
    destruct (begin E s a (WAssign true) r) as [[s1 es1]|] eqn:G; [|discriminate F].
    injection F as <- <-. apply in_app_iff in IN as [IN|[IN|[]]]; [destruct (B _ _ _ _ _ _ G IN)|discriminate IN].
  - destruct (c_drain s); [discriminate F|]. injection F as <- <-. destruct IN as [IN|[]]. discriminate IN.
  - destruct (c_drain s); [discriminate F|]. injection F as <- <-. destruct IN as [IN|[]]. discriminate IN.
  - destruct (c_drain s); [discriminate F|].
    destruct (ts_chunk _ _ _ _ _) as [[? ?]|]; [|discriminate F].
    injection F as <- <-. destruct IN as [IN|[]]. discriminate IN.
  - exfalso. destruct (c_drain s); [|discriminate F].
    destruct (rb_queue (c_buf s)) as [|[h m] q]; [injection F as <- <-; destruct IN|].
    cbn [set_buf c_pend c_act] in F. destruct (c_pend s (h_seq h)) as [a|].
    + destruct (c_act s a) as [[w' g]|]; [|discriminate F]. injection F as <- <-.
      destruct IN as [IN|[IN|[]]]; discriminate IN.
    + destruct (t_broadcast E m); injection F as <- <-; destruct IN as [IN|[IN|[]]]; discriminate IN.
  - exfalso. destruct (c_drain s); [discriminate F|].
    destruct (c_act s a) as [[v [|n m| |]]|] eqn:A; try discriminate F. injection F as F.
    unfold resume in F. destruct v as [auto|u|k o|k o].
    + destruct (t_self E m); [destruct (c_uuid _)|]; injection F as _ <-;
        destruct IN as [IN|[]]; discriminate IN.
    + destruct (t_hash E m) as [[?|]|]; injection F as _ <-; cbn [In] in IN;
        repeat destruct IN as [IN|IN]; try discriminate IN; destruct IN.
    + destruct (c_obj s o); injection F as _ <-; cbn [In] in IN;
        repeat destruct IN as [IN|IN]; try discriminate IN; try (exfalso; exact IN).
      destruct (t_answer E k m); discriminate IN.
    + destruct (c_obj s o); injection F as _ <-; cbn [In] in IN;
        repeat destruct IN as [IN|IN]; try discriminate IN; try (exfalso; exact IN).
      destruct (t_beacon E m) as [[?|]|]; discriminate IN.
  - destruct (c_drain s); [discriminate F|].
    destruct (c_act s a) as [[v [| |u|]]|] eqn:A; try discriminate F.
    destruct (B _ _ _ _ _ _ F IN).
Qed.

(** A call is turned away as too early only if an earlier call with the same
    object has not ended, or could not be sent. *)
Theorem C81_reusable_partial : forall ls s tr p b q,
  trun E ls s tr -> tr = p ++ VRet b (RetErr EBusy) :: q ->
  exists v o a w, In (VCall b v) p /\ call_on v o /\
    In (VCall a w) p /\ call_on w o /\ a <> b /\
    ((forall r, ~ In (VRet a r) p) \/ exists n r, r <> SOk /\ In (VNum a n r) p).
Proof.
  intros ls s tr p b q R Q.
  destruct (trun_split E _ _ _ R _ _ _ Q) as (ls1 & s1 & tr1 & l & s2 & e1 & e2 & R1 & F & P & _).
  destruct (busy_by _ _ _ _ _ _ F) as (v & o & r & -> & Hv & O & -> & ->).
  pose proof (trun_inv E _ _ _ R1) as I.
  assert (NB : c_act s1 b = None).
  { destruct (c_act s1 b) eqn:A; [|reflexivity]. exfalso. cbn [fire] in F.
    destruct v as [| |k k'|k k']; try discriminate F; unfold send in F; rewrite A in F; discriminate F. }
  destruct (i_pending E _ _ I o O) as (a & HA). exists v, o, a.
  assert (Hab : a <> b).
  { intros ->. pose proof (i_shape E _ _ I b) as S. rewrite NB in S. cbn [shape] in S.
    destruct HA as [HA|(w & n & x & e & _ & _ & HA)]; [rewrite NB in HA; destruct HA|].
    rewrite S in HA. discriminate HA. }
  assert (UP : forall e, In e (life E a tr1) -> In e p).
  { intros e H. rewrite P. apply in_app_iff. left. unfold life in H. apply filter_In in H. apply H. }
  assert (DN : forall r0, In (VRet a r0) p -> In (VRet a r0) (life E a tr1)).
  { intros r0 H. rewrite P in H. apply in_app_iff in H as [H|[H|[]]]; [|discriminate H].
    apply (in_life E a); [apply Nat.eqb_refl|exact H]. }
  destruct HA as [HA|(w & n & x & e & Hw & Hx & HA)].
  - pose proof (i_shape E _ _ I a) as S. unfold busy in HA.
    destruct (c_act s1 a) as [[w [n|n m|u|]]|]; try (exfalso; exact HA); cbn [shape] in S.
    + exists w. split; [rewrite P; apply in_elt|]. split; [apply on_call, Hv|].
      split; [apply UP; rewrite S; left; reflexivity|]. split; [apply on_call, HA|]. split; [exact Hab|].
      left. intros r0 H. apply DN in H. rewrite S in H. cbn [In] in H.
      repeat destruct H as [H|H]; try discriminate H; exact H.
    + exists w. split; [rewrite P; apply in_elt|]. split; [apply on_call, Hv|].
      split; [apply UP; rewrite S; left; reflexivity|]. split; [apply on_call, HA|]. split; [exact Hab|].
      left. intros r0 H. apply DN in H. rewrite S in H. cbn [In] in H.
      repeat destruct H as [H|H]; try discriminate H; exact H.
  - exists w. split; [rewrite P; apply in_elt|]. split; [apply on_call, Hv|].
    split; [apply UP; rewrite HA; left; reflexivity|]. split; [apply on_call, Hw|]. split; [exact Hab|].
    right. exists n, x. split; [exact Hx|]. apply UP. rewrite HA. right. left. reflexivity.
Qed.

Lemma failed_dead ls s tr : trun E ls s tr -> forall a o, failed E a o (life E a tr) -> dead E s o.
Proof.
  induction 1 as [|ls s tr l s' es R IH F]; intros a o H.
  - destruct H as (w & n & r & e & _ & _ & C). discriminate C.
  - pose proof (trun_inv E _ _ _ R) as I.
    pose proof (i_shape E _ _ I a) as S.
    destruct H as (w & n & r & e & Hw & Hr & H). rewrite life_app in H.
    assert (CASES : life E a tr = [] \/ exists x, life E a tr = VCall a w :: x).
    { destruct (life E a tr) as [|x l']; [auto|]. injection H as -> _. eauto. }
    destruct CASES as [C0|(x & C0)].
    + rewrite C0 in H. cbn [app] in H.
      assert (IN : In (VCall a w) es).
      { apply (in_life E a); [apply Nat.eqb_refl|]. rewrite H. left. reflexivity. }
      apply in_split in IN. destruct IN as (e1 & e2 & ->).
      destruct (call_by E _ _ _ _ _ _ _ F) as (-> & K). cbn [app] in *.
      assert (exists r', l = LSend a w r') as (r' & ->).
      { destruct w as [| |k o'|k o']; try discriminate Hw; exact K. }
      clear K. assert (F' : send E s a w o r' = Some (s', VCall a w :: e2)).
      { destruct w as [| |k o'|k o']; try discriminate Hw; injection Hw as ->; exact F. }
      unfold send in F'. destruct (c_act s a) eqn:A; [discriminate F'|].
      assert (NN : In (VNum a n r) (VCall a w :: e2)).
      { apply (in_life E a); [apply Nat.eqb_refl|]. rewrite H. right. left. reflexivity. }
      destruct (c_obj s o) eqn:O.
      * unfold begin in F'. cbn [set_obj c_act c_seq c_pend] in F'. rewrite A in F'.
        assert (X : forall u p b d k, dead E (set_act (mkTst k p u b d
                     (upd (c_obj s) o OPending) (c_act s)) a w (TDone)) o).
        { intros. split; cbn [set_act c_obj c_act]; [rewrite upd_same; discriminate|].
          intros j B. destruct (Nat.eq_dec j a) as [->|N]; [rewrite upd_same in B; destruct B|].
          rewrite upd_other in B by exact N. exact (i_ready E _ _ I j o O B). }
        destruct r'.
        -- injection F' as <- _. apply X.
        -- destruct (2 ^ 32 <=? c_seq s); [discriminate F'|].
           destruct (c_pend s (c_seq s)); injection F' as <- _; apply X.
        -- destruct (2 ^ 32 <=? c_seq s); [discriminate F'|].
           destruct (c_pend s (c_seq s)); [discriminate F'|]. injection F' as _ Q.
           rewrite <- Q in NN. destruct NN as [NN|[NN|[]]]; [discriminate NN|].
           injection NN; intros; congruence.
      * injection F' as _ Q. rewrite <- Q in NN. destruct NN as [NN|[NN|[]]]; discriminate NN.
      * injection F' as _ Q. rewrite <- Q in NN. destruct NN as [NN|[NN|[]]]; discriminate NN.
    + eapply fire_dead; [exact I|exact F|]. apply (IH a o).
      rewrite C0 in H. cbn [app] in H. injection H as H.
      destruct (life_cases E _ _ _ a R) as [C|[(w' & [C|C])|[(w' & k & x' & e' & Hx & _ & C)|[(w' & k & C)|
        [(w' & k & m' & C)|(w' & k & m' & x' & Hf & C)]]]]]; rewrite C in C0;
        try discriminate C0; injection C0; intros; subst; cbn [app] in H; try discriminate H.
      * injection H; intros; subst. rewrite C. do 4 eexists; eauto.
      * injection H; intros; subst. congruence.
Qed.

(** A call that could not be packed or sent makes its object useless for ever. *)
Theorem C81_failed_send_is_final : forall ls s tr p a w o n x q b v,
  trun E ls s tr -> tr = p ++ VNum a n x :: q -> x <> SOk ->
  In (VCall a w) p -> call_on w o ->
  In (VCall b v) q -> call_on v o ->
  (In (VRet b (RetErr EBusy)) q \/ In (VRet b (RetErr EGone)) q) /\
  forall k y, ~ In (VNum b k y) tr.
Proof.
  intros ls s tr p a w o n x q b v R Q Hx Hw Ow Hv Ov.
  apply on_call in Ow, Ov.
  apply in_split in Hv. destruct Hv as (q1 & q2 & Hq).
  assert (Q2 : tr = (p ++ VNum a n x :: q1) ++ VCall b v :: q2)
    by (rewrite Q, Hq, <- app_assoc; reflexivity).
  destruct (trun_split E _ _ _ R _ _ _ Q2) as (ls1 & s1 & tr1 & l & s2 & e1 & e2 & R1 & F & P & q' & Hq2).
  destruct (call_by E _ _ _ _ _ _ _ F) as (-> & K). rewrite app_nil_r in P. cbn [app] in F.
  assert (exists r', l = LSend b v r') as (r' & ->).
  { destruct v as [| |k o'|k o']; try discriminate Ov; exact K. }
  clear K. assert (F' : send E s1 b v o r' = Some (s2, VCall b v :: e2)).
  { destruct v as [| |k o'|k o']; try discriminate Ov; injection Ov as ->; exact F. }
  assert (NB : c_act s1 b = None).
  { unfold send in F'. destruct (c_act s1 b); [discriminate F'|reflexivity]. }
  assert (D : dead E s1 o).
  { subst tr1. eapply (failed_dead _ _ _ R1 a o).
    assert (IC : In (VCall a w) (life E a (p ++ VNum a n x :: q1))).
    { apply (in_life E a); [apply Nat.eqb_refl|]. apply in_app_iff. auto. }
    assert (IN : In (VNum a n x) (life E a (p ++ VNum a n x :: q1))).
    { apply (in_life E a); [apply Nat.eqb_refl|]. apply in_elt. }
    destruct (life_cases E _ _ _ a R1) as [C|[(w' & [C|C])|[(w' & k & x' & e' & Hx' & _ & C)|[(w' & k & C)|
      [(w' & k & m' & C)|(w' & k & m' & x' & Hf & C)]]]]]; rewrite C in IC, IN; cbn [In] in IC, IN;
      repeat destruct IN as [IN|IN]; try discriminate IN; try (exfalso; exact IN);
      repeat destruct IC as [IC|IC]; try discriminate IC; try (exfalso; exact IC);
      injection IN; intros; injection IC; intros; subst; try congruence.
    rewrite C. exists w, n, x, e'. auto. }
  assert (OUT : e2 = [VRet b (RetErr EBusy)] \/ e2 = [VRet b (RetErr EGone)]).
  { unfold send in F'. rewrite NB in F'. destruct (c_obj s1 o) eqn:O.
    - destruct D as (D & _). congruence.
    - injection F' as _ <-. auto.
    - injection F' as _ <-. auto. }
  split.
  - rewrite Hq, Hq2. destruct OUT as [->| ->]; [left|right];
      apply in_app_iff; right; right; left; reflexivity.
  - intros k y IN. apply (in_life E b) in IN; [|apply Nat.eqb_refl].
    assert (RR : exists e, In (VRet b (RetErr e)) (life E b tr) /\ (e = EBusy \/ e = EGone)).
    { rewrite Q2, Hq2. destruct OUT as [->| ->]; [exists EBusy|exists EGone]; (split; [|auto]);
        (apply (in_life E b); [apply Nat.eqb_refl|]); apply in_app_iff; right; right; left; reflexivity. }
    destruct RR as (e & RR & He).
    (* the events before the call are not about [b] *)
    assert (L0 : life E b tr1 = []).
    { pose proof (i_shape E _ _ (trun_inv E _ _ _ R1) b) as S. rewrite NB in S. exact S. }
    destruct (life_cases E _ _ _ b R) as [C|[(w' & [C|C])|[(w' & k' & x' & e' & Hx' & He' & C)|[(w' & k' & C)|
      [(w' & k' & m' & C)|(w' & k' & m' & x' & Hf & C)]]]]]; rewrite C in IN, RR; cbn [In] in IN, RR;
      repeat destruct IN as [IN|IN]; try discriminate IN; try (exfalso; exact IN);
      repeat destruct RR as [RR|RR]; try discriminate RR; try (exfalso; exact RR).
    + injection RR as ->. destruct He as [->| ->]; destruct He' as [K|K]; discriminate K.
    + (* ends with the response: the number comes right after the call *)
      assert (LL : life E b tr = VCall b v :: life E b (e2 ++ q')).
      { rewrite Q2, Hq2, P, life_app, L0. cbn [app life filter about]. rewrite Nat.eqb_refl. reflexivity. }
      rewrite C in LL. injection LL as _ LL.
      destruct OUT as [->| ->]; cbn [app life filter about] in LL; rewrite Nat.eqb_refl in LL; discriminate LL.
Qed.

(** ** C82: broadcasts *)

(** the broadcasts that the application is told of, and those that were read *)
Definition told (tr : list (tev (t_msg E))) : list (nat * t_msg E) :=
  flat_map (fun e => match e with VBroadcast b m => [(b, m)] | _ => [] end) tr.
Definition came (tr : list (tev (t_msg E))) : list (nat * t_msg E) :=
  flat_map (fun e => match e with
                     | VRead h m => match t_broadcast E m with Some b => [(b, m)] | None => [] end
                     | _ => []
                     end) tr.

(** Messages that come with number 0, as generated servers send their broadcasts,
    are never taken for answers: the application is told of every broadcast, once
    and in the order in which they came. *)
Theorem C82_broadcasts_in_order : forall ls s tr,
  trun E ls s tr ->
  (forall h m, In (VRead h m) tr -> t_broadcast E m <> None -> h_seq h = 0) ->
  told tr = came tr.
Proof.
  assert (T : forall a b, told (a ++ b) = told a ++ told b) by (intros; apply flat_map_app).
  assert (K : forall a b, came (a ++ b) = came a ++ came b) by (intros; apply flat_map_app).
  assert (C : forall cs, (forall e, In e cs -> calling E e) -> told cs = [] /\ came cs = []).
  { induction cs as [|e cs IH]; intro H; [auto|].
    destruct (IH (fun x Hx => H x (or_intror Hx))) as (H1 & H2).
    pose proof (H e (or_introl eq_refl)) as He. destruct e; try destruct He; auto. }
  induction 1 as [|ls s tr l s' es R IH F]; intro H; [reflexivity|].
  rewrite T, K, IH by (intros h m Hin; apply H; apply in_app_iff; auto). f_equal. clear IH.
  assert (H' : forall h m, In (VRead h m) es -> t_broadcast E m <> None -> h_seq h = 0)
    by (intros h m Hin; apply H; apply in_app_iff; auto).
  apply fire_emits in F as [(fa & fw & fr & fs & Hl & cs & Hes & Hc & Hb & Hs)|
    [(fa & fw & fn & fm & Hl & Ha & Hr)|[(fh & fm & fq & Hl & Hd & Hqq & Hb & Hx)|[(Hl & Hqq & Hes & Hs)|
    [(data & fuel & fo & fb & Hl & Hd & Ht & Hs & Hes)|[(Hl & Hes)|[(Hl & Hes)|(fo & Hl & Hes)]]]]]]].
  - destruct (C cs Hc) as (H1 & H2). destruct Hes as [->| ->]; [congruence|].
    rewrite T, K, H1, H2. reflexivity.
  - destruct (resume_emits E _ _ _ _ _ _ Hr) as [->|[(r & ->)|(u & _ & _ & ->)]]; reflexivity.
  - destruct Hx as [(fb & Hp & ->)|(Hp & ->)].
    + cbn [told came flat_map app]. rewrite app_nil_r.
      destruct (t_broadcast E fm) as [b|] eqn:B; [|reflexivity]. exfalso.
      rewrite (H' fh fm) in Hp; [|left; reflexivity|congruence].
      destruct (i_pend E _ _ (trun_inv E _ _ _ R) _ _ Hp) as (L & _). lia.
    + unfold told, came. cbn [flat_map app]. destruct (t_broadcast E fm); reflexivity.
  - rewrite Hes. reflexivity.
  - rewrite Hes. reflexivity.
  - rewrite Hes. reflexivity.
  - rewrite Hes. reflexivity.
  - rewrite Hes. reflexivity.
Qed.

(** However the data is cut into pieces: what was read, and what is left in the
    queue, is what was sent.  Nothing is left at rest if all messages can be
    decoded.  [quiet] excludes what makes the reader throw or run for ever. *)
Theorem C82_reads_what_came_partial : forall ls s tr ps tail,
  trun E ls s tr ->
  concat (chunks E tr) = stream ps ++ tail ->
  Forall packet_ok ps -> Forall (quiet (t_get E) (t_sig E)) ps -> no_packet tail ->
  blen (stream ps ++ tail) < 2 ^ 64 ->
  exists left, reads E tr ++ left = flat_map (deliver (t_get E) (t_sig E)) ps /\
    (at_rest s -> (forall p, In p ps -> exists m, t_get E (p_id p) (p_body p) = Ok m) -> left = []).
Proof.
  intros ls s tr ps tail R Q Hok Hq Ht Hl.
  destruct (trun_feeds E _ _ _ R) as (F & D).
  destruct (ts_feed_all (t_get E) (t_sig E) (chunks E tr) ps tail (mkBuf [] [])) as (ns & G & S); auto.
  { exists []. split; [reflexivity|]. intros p r Hp C. symmetry in C. apply app_eq_nil in C as (C & _).
    apply (f_equal blen) in C. rewrite wire_blen in C. unfold blen in C. cbn in C. lia. }
  destruct (ts_feeds_fun _ _ _ _ _ _ F _ _ G) as (Ho & Hb). injection Hb as _ Hb.
  exists (rb_queue (c_buf s)). split; [exact Hb|].
  intros (Rest & _) Good. destruct (rb_queue (c_buf s)) as [|x l] eqn:QQ; [reflexivity|].
  exfalso. destruct (D Rest) as (os & o & Hos & No); [discriminate|].
  rewrite Ho in Hos.
  assert (Z : count_bad (t_get E) (t_sig E) ps = O).
  { unfold count_bad. rewrite Forall_forall in Hq.
    replace (filter (badb (t_get E) (t_sig E)) ps) with (@nil packet); [reflexivity|].
    symmetry. clear -Hq Good. induction ps as [|p ps IH]; [reflexivity|]. cbn [filter].
    destruct (Hq p (or_introl eq_refl)) as (Sg & _). destruct (Good p (or_introl eq_refl)) as (m & Hm).
    unfold badb, deliver. rewrite Sg, N.eqb_refl, Hm. apply IH.
    - intros y Hy. apply Hq. right. exact Hy.
    - intros y Hy. apply Good. right. exact Hy. }
  rewrite Z in S.
  assert (exists n, In n ns /\ o = TReturned n) as (n & Hn & ->).
  { assert (IN : In o (map TReturned ns)) by (rewrite Hos; apply in_elt).
    apply in_map_iff in IN. destruct IN as (n & <- & Hn). eauto. }
  assert (n = O).
  { clear -S Hn. induction ns as [|k ns IH]; [destruct Hn|]. change (k + list_sum ns = 0)%nat in S.
    destruct Hn as [<-|Hn]; [lia|]. apply IH; [lia|exact Hn]. }
  congruence.
Qed.

(** ** C83: what [ready] means *)

(** [ready] is emitted with [u] only after a connection was made, the key of the
    client was sent, the server answered with [u], the hashes were sent, and the
    server accepted them, in this order. *)
Theorem C83_ready_after_handshake : forall ls s tr p u q,
  trun E ls s tr -> tr = p ++ VReady u :: q ->
  exists a na ma b nb mb p1 p2 p3 p4 p5,
    p = p1 ++ [VCall a (WAssign true); VNum a na SOk; VConnected] ++
        p2 ++ [VMatch a na ma] ++ p3 ++ [VCall b (WHash u); VNum b nb SOk] ++
        p4 ++ [VMatch b nb mb] ++ p5 /\
    t_self E ma = Some u /\ t_hash E mb = Some None.
Proof.
  intros ls s tr p u q R Q.
  destruct (trun_split E _ _ _ R _ _ _ Q) as (ls1 & s1 & tr1 & l & s2 & e1 & e2 & R1 & F & P & _).
  destruct (ready_by E _ _ _ _ _ _ F) as (b & nb & mb & -> & Ab & Tb & ->).
  pose proof (i_shape E _ _ (trun_inv E _ _ _ R1) b) as Sb. rewrite Ab in Sb. cbn [shape] in Sb.
  assert (bc : forall w, about E b (VCall b w) = true) by (intro; apply Nat.eqb_refl).
  assert (bn : forall n x, about E b (VNum b n x) = true) by (intros; apply Nat.eqb_refl).
  destruct (life_before E b tr1 _ _ [] _ (bc _) (bn _ _) Sb) as (t1 & t2 & t3 & Htr1 & L1 & L2 & L3).
  destruct (trun_split E _ _ _ R1 _ _ _ Htr1) as (ls0 & s0 & tr0 & l0 & s0' & d1 & d2 & R0 & F0 & P0 & z & Hz).
  destruct (call_by E _ _ _ _ _ _ _ F0) as (-> & a & v & x & -> & Aa). rewrite app_nil_r in P0. subst tr0.
  (* the number comes right after the call *)
  assert (Hd : d2 = [VNum b nb SOk]).
  { cbn [fire app] in F0. destruct (c_drain s0); [discriminate F0|]. rewrite Aa in F0.
    assert (NB : In (VNum b nb SOk) (life E b tr1)) by (rewrite Sb; right; left; reflexivity).
    assert (NR : forall r, ~ In (VRet b r) tr1).
    { intros r H. apply (in_life E b) in H; [|apply Nat.eqb_refl]. rewrite Sb in H. cbn [In] in H.
      repeat destruct H as [H|H]; try discriminate H; exact H. }
    assert (DD : forall y, In y d2 -> In y tr1).
    { intros y H. rewrite Htr1. apply in_app_iff. right. right. rewrite Hz. apply in_app_iff. auto. }
    apply begin_emits in F0 as ([F0|(y & F0)] & _).
    - injection F0 as ->. assert (IN : In (VNum b (c_seq (set_act s0 a v (TDone))) x) (life E b tr1)).
      { apply (in_life E b); [apply Nat.eqb_refl|]. apply DD. left. reflexivity. }
      rewrite Sb in IN. cbn [In] in IN. repeat destruct IN as [IN|IN]; try discriminate IN; try (exfalso; exact IN).
      injection IN; intros; subst. reflexivity.
    - exfalso. injection F0 as ->. apply (NR (RetErr y)). apply DD. right. left. reflexivity. }
  subst d2.
  assert (t2 = [] /\ t3 = z) as (-> & ->).
  { rewrite Htr1 in Sb. destruct t2 as [|y t2]; cbn [app] in Hz.
    - injection Hz as <-. auto.
    - exfalso. injection Hz as -> _. cbn [life filter] in L2. rewrite bn in L2. discriminate L2. }
  clear Hz. cbn [app] in Htr1.
  assert (exists p4 p5, z = p4 ++ VMatch b nb mb :: p5) as (p4 & p5 & ->).
  { apply in_split. apply (in_life E b); [apply Nat.eqb_refl|]. rewrite L3. left. reflexivity. }
  (* the first half of the handshake *)
  pose proof (i_shape E _ _ (trun_inv E _ _ _ R0) a) as Sa. rewrite Aa in Sa.
  destruct Sa as (na & ma & -> & Ta & Sa).
  assert (ac : forall w, about E a (VCall a w) = true) by (intro; apply Nat.eqb_refl).
  assert (an : forall n y, about E a (VNum a n y) = true) by (intros; apply Nat.eqb_refl).
  destruct (life_before E a t1 _ _ [] _ (ac _) (an _ _) Sa) as (u1 & u2 & u3 & Ht1 & M1 & M2 & M3).
  destruct (trun_split E _ _ _ R0 _ _ _ Ht1) as (ls' & s' & tr' & l' & s'' & c1 & c2 & R' & F' & P' & z' & Hz').
  destruct (call_by E _ _ _ _ _ _ _ F') as (-> & y & ->). rewrite app_nil_r in P'. subst tr'.
  assert (Hc : c2 = [VNum a na SOk; VConnected]).
  { cbn [fire app] in F'. destruct (c_drain s'); [discriminate F'|].
    destruct (begin E s' a (WAssign true) y) as [[sx cs]|] eqn:B; [|discriminate F'].
    injection F' as _ F'.
    assert (DD : forall k, In k c2 -> In k t1).
    { intros k H. rewrite Ht1. apply in_app_iff. right. right. rewrite Hz'. apply in_app_iff. auto. }
    apply begin_emits in B as ([->|(k & ->)] & _); cbn [app] in F'; injection F' as <-.
    - assert (IN : In (VNum a (c_seq s') y) (life E a t1)).
      { apply (in_life E a); [apply Nat.eqb_refl|]. apply DD. left. reflexivity. }
      rewrite Sa in IN. cbn [In] in IN. repeat destruct IN as [IN|IN]; try discriminate IN; try (exfalso; exact IN).
      injection IN; intros; subst. reflexivity.
    - exfalso. assert (IN : In (VRet a (RetErr k)) (life E a t1)).
      { apply (in_life E a); [apply Nat.eqb_refl|]. apply DD. right. left. reflexivity. }
      rewrite Sa in IN. cbn [In] in IN. repeat destruct IN as [IN|IN]; try discriminate IN; exact IN. }
  subst c2.
  assert (u2 = [] /\ u3 = VConnected :: z') as (-> & ->).
  { destruct u2 as [|k u2]; cbn [app] in Hz'.
    - injection Hz' as <-. auto.
    - exfalso. injection Hz' as -> _. cbn [life filter] in M2. rewrite an in M2. discriminate M2. }
  clear Hz'. cbn [app] in Ht1.
  assert (exists p2 p3, z' = p2 ++ VMatch a na ma :: p3) as (p2 & p3 & ->).
  { apply in_split. apply (in_life E a); [apply Nat.eqb_refl|].
    cbn [life filter about] in M3. unfold life. rewrite M3. left. reflexivity. }
  exists a, na, ma, b, nb, mb, u1, p2, p3, p4, (p5 ++ [VRet b (RetHash)]).
  split; [|auto]. rewrite P, Htr1, Ht1.
  repeat (rewrite <- !app_assoc || cbn [app]). reflexivity.
Qed.

(** The uuid of the client is the first one that an answer of the server gave
    since the last time the connection was lost; it is not blank, and no later
    answer of the same connection replaces it. *)
Definition first_uuid (tr : list (tev (t_msg E))) : option bytes :=
  fold_left (fun acc e => match e with
                          | VDisconnected => None
                          | VRet _ (RetUuid u) => match acc with None => Some u | Some _ => acc end
                          | _ => acc
                          end) tr None.

Lemma begin_uuid s a w r s' es : begin E s a w r = Some (s', es) ->
  c_uuid s' = c_uuid s /\
  forall acc, fold_left (fun acc e => match e with
                          | VDisconnected => None
                          | VRet _ (RetUuid u) => match acc with None => Some u | Some _ => acc end
                          | _ => acc
                          end) es acc = acc.
Proof.
  unfold begin. intro F. destruct (c_act s a); [discriminate F|].
  destruct r; try (injection F as <- <-; auto; fail);
    (destruct (2 ^ 32 <=? c_seq s); [discriminate F|]);
    destruct (c_pend s (c_seq s)); try discriminate F; injection F as <- <-; auto.
Qed.

Theorem C83_uuid_is_the_first : forall ls s tr, trun E ls s tr ->
  c_uuid s = first_uuid tr /\ forall u, c_uuid s = Some u -> t_blank E u = false.
Proof.
  intros ls s tr R. induction R as [|ls s tr l s' es R (IH & NB) F].
  { split; [reflexivity|]. intros u W. discriminate W. }
  unfold first_uuid. rewrite fold_left_app. fold (first_uuid tr). rewrite <- IH.
  assert (K : forall s1 a w r s2 es2, c_uuid s1 = c_uuid s -> begin E s1 a w r = Some (s2, es2) ->
     c_uuid s2 = fold_left (fun acc (e : tev (t_msg E)) => match e with
                          | VDisconnected => None
                          | VRet _ (RetUuid u) => match acc with None => Some u | Some _ => acc end
                          | _ => acc
                          end) es2 (c_uuid s) /\ forall u, c_uuid s2 = Some u -> t_blank E u = false).
  { intros s1 a w r s2 es2 Q B. destruct (begin_uuid _ _ _ _ _ _ B) as (U & V).
    rewrite V, U, Q. split; [reflexivity|exact NB]. }
  destruct l; cbn [fire] in F.
  - assert (SND : forall o, send E s a w o r = Some (s', es) ->
       c_uuid s' = fold_left (fun acc (e : tev (t_msg E)) => match e with
                          | VDisconnected => None
                          | VRet _ (RetUuid u) => match acc with None => Some u | Some _ => acc end
                          | _ => acc
                          end) es (c_uuid s) /\ forall u, c_uuid s' = Some u -> t_blank E u = false).
    { intros o S. unfold send in S. destruct (c_act s a); [discriminate S|].
      destruct (c_obj s o); [|injection S as <- <-; split; [reflexivity|exact NB]..].
      eapply K; [|exact S]. reflexivity. }
    destruct w; try discriminate F; eapply SND; exact F.
  - eapply K; [|exact F]. reflexivity.
  - injection F as <- <-. split; [reflexivity|exact NB].
  - destruct (c_drain s); [discriminate F|].
    destruct (begin E s a (WAssign true) r) as [[s1 es1]|] eqn:B; [|discriminate F]. injection F as <- <-.
    rewrite fold_left_app. destruct (begin_uuid _ _ _ _ _ _ B) as (U & V). rewrite V, U.
    split; [reflexivity|exact NB].
  - destruct (c_drain s); [discriminate F|]. injection F as <- <-. split; [reflexivity|].
    intros u W. discriminate W.
  - destruct (c_drain s); [discriminate F|]. injection F as <- <-. split; [reflexivity|exact NB].
  - destruct (c_drain s); [discriminate F|].
    destruct (ts_chunk (t_get E) (t_sig E) fuel (c_buf s) data) as [[o b]|]; [|discriminate F].
    injection F as <- <-. split; [reflexivity|exact NB].
  - destruct (c_drain s); [|discriminate F].
    destruct (rb_queue (c_buf s)) as [|[h m] q]; [injection F as <- <-; split; [reflexivity|exact NB]|].
    cbn [set_buf c_pend c_act] in F. destruct (c_pend s (h_seq h)) as [a|].
    + destruct (c_act s a) as [[w g]|]; [|discriminate F]. injection F as <- <-. split; [reflexivity|exact NB].
    + destruct (t_broadcast E m); injection F as <- <-; split; solve [reflexivity|exact NB].
  - destruct (c_drain s); [discriminate F|]. destruct (c_act s a) as [[w [n|n m|u|]]|]; try discriminate F.
    injection F as F. unfold resume in F.
    destruct w as [auto|u|r o|b o].
    + destruct (t_self E m) as [u|]; [|injection F as <- <-; split; [reflexivity|exact NB]].
      unfold keep_uuid in F. destruct (c_uuid s) as [v|] eqn:CU; destruct (t_blank E u) eqn:BU;
        cbn [set_uuid c_uuid] in F; injection F as <- <-; cbn [set_act set_uuid c_uuid fold_left];
        (split; [reflexivity|]); intros w W; try discriminate W; injection W as <-; auto.
    + destruct (t_hash E m) as [[t|]|]; injection F as <- <-; (split; [reflexivity|exact NB]).
    + destruct (c_obj s o); injection F as <- <-; (split; [|exact NB]); destruct (t_answer E r m); reflexivity.
    + destruct (c_obj s o); injection F as <- <-; (split; [|exact NB]); destruct (t_beacon E m) as [[t|]|]; reflexivity.
  - destruct (c_drain s); [discriminate F|]. destruct (c_act s a) as [[w [n|n m|u|]]|]; try discriminate F.
    eapply K; [|exact F]. reflexivity.
Qed.

(** ** C84: can a message always be sent? *)

(** As long as fewer than 2^32 - 1 numbers were taken, an object that was neither
    destroyed nor is in use can send its message. *)
Theorem C84_can_send_partial : forall ls s tr a w o,
  trun E ls s tr -> call_on w o -> c_act s a = None -> c_obj s o = OReady ->
  N.of_nat (length (nums E tr)) < 2 ^ 32 - 1 ->
  exists s', fire E s (LSend a w SOk) =
    Some (s', [VCall a w; VNum a (1 + N.of_nat (length (nums E tr))) SOk]).
Proof.
  intros ls s tr a w o R (k & Hw) Ha Ho L. pose proof (trun_inv E _ _ _ R) as I.
  assert (P : c_pend s (c_seq s) = None).
  { destruct (c_pend s (c_seq s)) as [b|] eqn:C; [|reflexivity].
    destruct (i_pend E _ _ I _ _ C) as (H & _). lia. }
  assert (LE : 2 ^ 32 <=? c_seq s = false) by (apply N.leb_gt; rewrite (i_seq E _ _ I); lia).
  rewrite <- (i_seq E _ _ I).
  destruct Hw as [->| ->]; cbn [fire]; unfold send; rewrite Ha, Ho; unfold begin;
    cbn [set_obj c_act c_seq c_pend]; rewrite Ha, P, LE; eexists; reflexivity.
Qed.

(** After that no message can be sent any more. *)
Theorem C84_numbers_run_out_refuted : exists ls s tr, trun E ls s tr /\ c_drain s = false /\
  (exists a o, c_act s a = None /\ c_obj s o = OReady) /\
  forall l s' es a n, fire E s l = Some (s', es) -> ~ In (VNum a n SOk) es.
Proof.
  assert (X : forall k, N.of_nat k < 2 ^ 32 -> exists ls s tr, trun E ls s tr /\
     c_seq s = 1 + N.of_nat k /\ c_drain s = false /\
     (forall j, (k <= j)%nat -> c_act s j = None /\ c_obj s j = OReady) /\
     (forall n, c_pend s n <> None -> n < 1 + N.of_nat k)).
  { induction k as [|k IH]; intro L.
    - exists [], (tinit), []. repeat split; try constructor; cbn. intros n H. destruct (H eq_refl).
    - destruct IH as (ls & s & tr & R & Q & D & A & P); [lia|].
      destruct (A k (le_n k)) as (A1 & A2).
      assert (P0 : c_pend s (c_seq s) = None).
      { destruct (c_pend s (c_seq s)) eqn:C; [|reflexivity].
        assert (c_seq s < 1 + N.of_nat k) by (apply P; congruence). lia. }
      assert (LE : 2 ^ 32 <=? c_seq s = false) by (apply N.leb_gt; rewrite Q; lia).
      assert (exists s', fire E s (LSend k (WReq 0 k) SOk) = Some (s',
                [VCall k (WReq 0 k); VNum k (c_seq s) SOk]) /\
              c_seq s' = c_seq s + 1 /\ c_drain s' = c_drain s /\
              c_act s' = upd (c_act s) k (Some (WReq 0 k, TWait (c_seq s))) /\
              c_obj s' = upd (c_obj s) k OPending /\
              c_pend s' = updN (c_pend s) (c_seq s) (Some k)) as (s' & F & F1 & F2 & F3 & F4 & F5).
      { cbn [fire]. unfold send. rewrite A1, A2. unfold begin. cbn [set_obj c_act c_seq c_pend].
        rewrite A1, P0, LE. eexists. split; [reflexivity|]. repeat split. }
      eexists _, s', _. split; [econstructor; [exact R|exact F]|].
      split; [rewrite F1, Q; lia|]. split; [congruence|]. split.
      + intros j Hj. rewrite F3, F4, !upd_other by lia. apply A. lia.
      + intros n H. rewrite F5 in H. destruct (N.eq_dec n (c_seq s)) as [->|N].
        * lia.
        * rewrite updN_other in H by exact N. apply P in H. lia. }
  destruct (X (N.to_nat (2 ^ 32 - 1))) as (ls & s & tr & R & Q & D & A & P); [rewrite N2Nat.id; reflexivity|].
  exists ls, s, tr. split; [exact R|]. split; [exact D|]. split.
  { destruct (A _ (le_n _)) as (A1 & A2). eauto. }
  intros l s' es a n F IN.
  assert (R' : trun E (ls ++ [l]) s' (tr ++ es)) by (econstructor; eauto).
  apply in_split in IN. destruct IN as (e1 & e2 & ->).
  destruct (num_position E _ _ _ a n SOk (tr ++ e1) e2 R') as (H & H2).
  { rewrite <- app_assoc. reflexivity. }
  specialize (H2 eq_refl). rewrite nums_app, app_length in H.
  pose proof (i_seq E _ _ (trun_inv E _ _ _ R)) as SQ. rewrite Q, N2Nat.id in SQ. lia.
Qed.

End Statements.

(** ** Examples and refutations *)

Definition u1 : bytes := [x41].
Definition u2 : bytes := [x42].

(** After the handshake two requests are sent; the answers come in the other
    order, a broadcast between them, in one piece of data. *)
Definition two_calls : list label :=
  demo_greet 0 1 1 u1 ++ [LSend 2 (WReq 0 0) SOk; LSend 3 (WReq 0 1) SOk] ++
  demo_data (demo_msg 4 4 [x62] ++ demo_msg 6 0 [x78] ++ demo_msg 5 3 [x61]) 3 ++
  [LRun 3; LRun 2].

Ltac resting :=
  split; [reflexivity|]; let k := fresh "k" in intro k; do 10 (destruct k as [|k]; [exact I|]); exact I.

Example C78_numbers_example : exists ls s tr, trun demo_env ls s tr /\
  exists p q1 q2, tr = p ++ VNum 2 3 SOk :: q1 ++ VNum 3 4 SOk :: q2.
Proof.
  apply (demo _ two_calls). vm_compute.
  eexists [_; _; _; _; _; _; _; _; _; _; _; _; _; _; _], [_], _. reflexivity.
Qed.

Example C79_own_answer_example : exists ls s tr, trun demo_env ls s tr /\
  In (VRet 2 (RetAnswer 1 (5, [x61]))) tr /\
  In (VRet 3 (RetAnswer 0 (4, [x62]))) tr.
Proof.
  apply (demo _ two_calls). vm_compute. split; [do 26 right|do 25 right]; left; reflexivity.
Qed.

Example C80_answered_calls_end_example : exists ls s tr, trun demo_env ls s tr /\ at_rest demo_env s /\
  exists p q h, tr = p ++ VNum 2 3 SOk :: q /\ In (VRead h (5, [x61])) q /\ h_seq h = 3.
Proof.
  apply (demo _ two_calls). vm_compute. split; [resting|].
  eexists [_; _; _; _; _; _; _; _; _; _; _; _; _; _; _], _, _. split; [reflexivity|].
  split; [|shelve]. do 7 right. left. reflexivity. Unshelve. reflexivity.
Qed.

(** A request is under way when the connection ends.  Another connection is made
    and the client is ready again, but the request never ends
    ([C80_unanswered_calls_wait]: only a message with its number could end it, and
    the new connection knows nothing of it), and its object is of no use. *)
Theorem C80_calls_end_refuted : exists ls s tr, trun demo_env ls s tr /\ at_rest demo_env s /\
  (exists p q, tr = p ++ VNum 2 3 SOk :: VDisconnected :: q /\
     In (VReady u2) q) /\
  (forall r, ~ In (VRet 2 r) tr) /\
  (forall h m, In (VRead h m) tr -> h_seq h <> 3) /\
  exists s', fire demo_env s (LSend 9 (WReq 0 0) SOk) =
    Some (s', [VCall 9 (WReq 0 0); VRet 9 (RetErr EBusy)]).
Proof.
  apply (demo _ (demo_greet 0 1 1 u1 ++ [LSend 2 (WReq 0 0) SOk; LDisconnected] ++
                 demo_greet 3 4 4 u2)).
  vm_compute. split; [resting|]. split; [|split; [|split]].
  - eexists [_; _; _; _; _; _; _; _; _; _; _; _; _; _; _], _. split; [reflexivity|].
    do 13 right. left. reflexivity.
  - intros r H. repeat destruct H as [H|H]; try discriminate H; exact H.
  - intros h m H. repeat destruct H as [H|H]; try discriminate H; try (exfalso; exact H);
      injection H as <- <-; discriminate.
  - eexists. reflexivity.
Qed.

(** The transport refuses a message once.  From then on the object cannot be used,
    although the transport takes the message of another object. *)
Theorem C81_reusable_refuted : exists ls s tr, trun demo_env ls s tr /\ at_rest demo_env s /\
  In (VRet 2 (RetErr ESend)) tr /\
  (forall x, exists s', fire demo_env s (LSend 3 (WReq 0 0) x) =
     Some (s', [VCall 3 (WReq 0 0); VRet 3 (RetErr EBusy)])) /\
  exists s', fire demo_env s (LSend 3 (WReq 0 1) SOk) =
     Some (s', [VCall 3 (WReq 0 1); VNum 3 4 SOk]).
Proof.
  apply (demo _ (demo_greet 0 1 1 u1 ++ [LSend 2 (WReq 0 0) SRefuse])).
  vm_compute. split; [resting|]. split; [do 16 right; left; reflexivity|]. split.
  - intro x. eexists. reflexivity.
  - eexists. reflexivity.
Qed.

(** a call turned away because the one before has not ended *)
Example C81_reusable_example : exists ls s tr, trun demo_env ls s tr /\
  exists p q, tr = p ++ VRet 3 (RetErr EBusy) :: q.
Proof.
  apply (demo _ [LSend 2 (WReq 0 0) SOk; LSend 3 (WReq 0 0) SOk]).
  vm_compute. eexists [_; _; _], _. reflexivity.
Qed.

Example C81_failed_send_is_final_example : exists ls s tr, trun demo_env ls s tr /\
  exists p q, tr = p ++ VNum 2 1 SThrow :: q /\
    In (VCall 2 (WReq 0 0)) p /\ In (VCall 3 (WReq 0 0)) q.
Proof.
  apply (demo _ [LSend 2 (WReq 0 0) SThrow; LSend 3 (WReq 0 0) SOk]).
  vm_compute. eexists [_], _. split; [reflexivity|]. auto.
Qed.

Example C82_broadcasts_in_order_example : exists ls s tr, trun demo_env ls s tr /\
  (forall h m, In (VRead h m) tr -> t_broadcast demo_env m <> None -> h_seq h = 0) /\
  told demo_env tr = [(0%nat, (6, [x78]))].
Proof.
  apply (demo _ two_calls). vm_compute. split; [|reflexivity].
  intros h m H. repeat destruct H as [H|H]; try discriminate H; try (exfalso; exact H);
    injection H as <- <-; try reflexivity; intro C; destruct (C eq_refl).
Qed.

Definition pk (id n : N) (body : bytes) : packet := mkPacket id 7 n 0 body.

Example C82_reads_what_came_example : exists ls s tr, trun demo_env ls s tr /\ at_rest demo_env s /\
  concat (chunks demo_env tr) =
    stream [pk 1 1 u1; pk 2 2 []; pk 4 4 [x62]; pk 6 0 [x78]; pk 5 3 [x61]] /\
  length (reads demo_env tr) = 5%nat.
Proof.
  apply (demo _ two_calls). vm_compute. split; [resting|]. split; reflexivity.
Qed.

(** A broadcast comes in one piece of data with a message that cannot be decoded:
    the application is not told of it, although nothing is left to do. *)
Theorem C82_reads_what_came_refuted : exists ls s tr, trun demo_env ls s tr /\ at_rest demo_env s /\
  concat (chunks demo_env tr) = stream [pk 1 1 u1; pk 2 2 []; pk 6 0 [x78]; pk 4 0 [xff]] /\
  Forall (quiet (t_get demo_env) (t_sig demo_env)) [pk 1 1 u1; pk 2 2 []; pk 6 0 [x78]; pk 4 0 [xff]] /\
  told demo_env tr = [].
Proof.
  apply (demo _ (demo_greet 0 1 1 u1 ++ [LData (demo_msg 6 0 [x78] ++ demo_msg 4 0 [xff]) 9])).
  vm_compute. split; [resting|]. split; [reflexivity|]. split; [|reflexivity].
  repeat constructor; discriminate.
Qed.

Example C83_ready_example : exists ls s tr, trun demo_env ls s tr /\
  exists p q, tr = p ++ VReady u1 :: q.
Proof.
  apply (demo _ two_calls). vm_compute.
  eexists [_; _; _; _; _; _; _; _; _; _; _; _; _], _. reflexivity.
Qed.

Example C83_uuid_example : exists ls s tr, trun demo_env ls s tr /\ c_uuid s = Some u1.
Proof. apply (demo _ two_calls). vm_compute. auto. Qed.

Example C84_can_send_example : exists ls s tr, trun demo_env ls s tr /\
  c_act s 4 = None /\ c_obj s 2 = OReady /\
  N.of_nat (length (nums demo_env tr)) = 4.
Proof. apply (demo _ two_calls). vm_compute. auto. Qed.

Print Assumptions C78_numbers_are_counted.
Print Assumptions C78_numbers_differ.
Print Assumptions C79_own_answer.
Print Assumptions C80_answered_calls_end_partial.
Print Assumptions C80_unanswered_calls_wait.
Print Assumptions C80_calls_end_refuted.
Print Assumptions C81_reusable_partial.
Print Assumptions C81_failed_send_is_final.
Print Assumptions C81_reusable_refuted.
Print Assumptions C82_broadcasts_in_order.
Print Assumptions C82_reads_what_came_partial.
Print Assumptions C82_reads_what_came_refuted.
Print Assumptions C83_ready_after_handshake.
Print Assumptions C83_uuid_is_the_first.
Print Assumptions C84_can_send_partial.
Print Assumptions C84_numbers_run_out_refuted.
