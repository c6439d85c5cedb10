(** A connected producer and consumer that have come to rest have answered every
    call (C75). *)
From Coq Require Import List NArith Bool Lia Arith Wf_nat.
From Verif Require Import Bytes WireModel FrameModel FrameProofs.
From Verif Require ProducerModel ProducerProofs ProducerMore PropProducer.
From Verif Require ConsumerModel ConsumerProofs ConsumerInv ConsumerTrace ConsumerTrace2 ConsumerGood ConsumerSpec PropConsumer PropConsumerLife.
From Verif Require Import SystemModel SystemProofs SystemAnswers PropSystem.
Import ListNotations.
Open Scope N_scope.

(** ** The consumer *)
Section Consumer.
Import ConsumerModel ConsumerProofs ConsumerInv ConsumerTrace ConsumerTrace2.
Variable E : cenv.
Notation out := (out E). Notation st := (st E).

(** a call that has not ended is under way *)
Definition under_way (tr : list out) (s : st) : Prop :=
  forall a k, In (XCall E a k) tr -> act E a (s_acts E s) <> None \/ exists o, In o tr /\ ended E a o.
Lemma act_put a b x l : act E a (put_act E b x l) <> None <-> act E a l <> None.
Proof.
  induction l as [|[c y] l IH]; [tauto|]. cbn [put_act]. destruct (Nat.eqb b c) eqn:Q; cbn [act].
  - destruct (Nat.eqb a c); [split; discriminate|tauto].
  - destruct (Nat.eqb a c); [split; discriminate|exact IH].
Qed.
Lemma act_del a b l : a <> b -> act E a (del_act E b l) = act E a l.
Proof.
  intros D. induction l as [|[c y] l IH]; [reflexivity|]. cbn [del_act]. destruct (Nat.eqb_spec b c) as [->|B]; cbn [act].
  - destruct (Nat.eqb_spec a c) as [->|A]; [congruence|reflexivity].
  - rewrite IH. reflexivity.
Qed.
Lemma eff_under_way tr s t s' : eff E s t s' -> under_way tr s -> under_way (tr ++ t) s'.
Proof.
  intros F U a k J.
  assert (OLD : In (XCall E a k) tr -> (act E a (s_acts E s) <> None -> act E a (s_acts E s') <> None \/ exists o, In o (tr ++ t) /\ ended E a o) ->
    act E a (s_acts E s') <> None \/ exists o, In o (tr ++ t) /\ ended E a o).
  { intros Jo K. destruct (U _ _ Jo) as [W|(o & O1 & O2)]; [apply K; exact W|right; exists o; split; [apply in_app_iff; auto|exact O2]]. }
  assert (GONE : forall b o, ended E b o -> In o t -> s_acts E s' = del_act E b (s_acts E s) ->
    act E a (s_acts E s) <> None -> act E a (s_acts E s') <> None \/ exists o, In o (tr ++ t) /\ ended E a o).
  { intros b o O1 O2 Q W. destruct (Nat.eq_dec a b) as [->|D]; [right; exists o; split; [apply in_app_iff; auto|exact O1]|].
    left. rewrite Q, act_del; assumption. }
  apply in_app_iff in J.
  destruct F; try (destruct J as [J|J]; [|exfalso; cbn in J; intuition discriminate]; apply OLD; [exact J|]; intros W).
  all: try (left; cbn; first [exact W | apply act_put; exact W]).
  all: try (eapply GONE; [|left; reflexivity|reflexivity|exact W]; cbn; reflexivity).
  - destruct J as [J|J].
    + apply OLD; [exact J|]. intros W. left. cbn. destruct (Nat.eqb a (s_next E s)); [discriminate|exact W].
    + destruct J as [J|[]]. injection J as <- <-. left. cbn. rewrite Nat.eqb_refl. discriminate.
  - left. cbn. destruct (Nat.eqb a (s_next E s)); [discriminate|exact W].
Qed.

Definition rd (n : N) (t : list out) : nat := length (with_number n (PropConsumerLife.read E t)).
Definition sd (n : N) (t : list out) : nat := length (with_carried n (sent_up E t)).
Lemma rd_app n a b : rd n (a ++ b) = (rd n a + rd n b)%nat.
Proof. unfold rd, PropConsumerLife.read, with_number. rewrite flat_map_app, filter_app, app_length. reflexivity. Qed.
Lemma sd_app n a b : sd n (a ++ b) = (sd n a + sd n b)%nat.
Proof. unfold sd, sent_up, with_carried. rewrite flat_map_app, filter_app, app_length. reflexivity. Qed.

(** every message read with the number [n] is taken for an answer, or the api task
    is still asked about it *)
Definition all_taken (n : N) (tr : list out) (s : st) : Prop :=
  rd n tr = (matches E n tr + match s_msg E s with MWait _ h _ None => if (h_seq h =? n)%N then 1 else 0 | _ => 0 end)%nat /\
  forall h m, s_msg E s = MWait E h m (Some false) -> h_seq h <> n.

Section Whole.
Variable T : list out.
Hypothesis X : ConsumerSpec.exec E T.
Variable n : N.
Hypothesis BOUND : forall t1 t2, T = t1 ++ t2 -> (rd n t1 <= sd n t1)%nat.
Hypothesis CONF : forall h m, In (XIn E h m) T -> x_confirm E m = true -> h_seq h <> n.
Hypothesis UP : forall r, ~ In (XApiEnd E r) T.
Hypothesis ON : forall b r, ~ In (XOver E b r) T.

Lemma still_up tr s rest : inv E tr s -> T = tr ++ rest -> api_up E s = true.
Proof.
  intros I Q. destruct (api_up E s) eqn:U; [reflexivity|]. destruct (e_api' _ _ _ (i_ends _ _ _ I) U) as [(r & J)|J].
  - elim (UP r). rewrite Q. apply in_app_iff. auto.
  - elim (ON false (Some XPanic)). rewrite Q. apply in_app_iff. auto.
Qed.
Lemma eff_all_taken tr s t s' rest : inv E tr s -> eff E s t s' -> T = tr ++ t ++ rest -> all_taken n tr s -> all_taken n (tr ++ t) s'.
Proof.
  intros I F Q (A1 & A2). pose proof (still_up _ _ _ I Q) as U. pose proof (i_accepts _ _ _ I) as AC. unfold accepts_ok in AC. rewrite U in AC.
  unfold all_taken. rewrite rd_app, matches_app.
  assert (IN : forall o, In o t -> In o T) by (intros o J; rewrite Q, !in_app_iff; auto).
  destruct F.
  all: try (exfalso; match goal with H : forall o, In o ?l -> In o T |- _ => match l with context [XApiEnd E ?r] => apply (UP r), IN; cbn; auto; fail end end).
  all: try (exfalso; match goal with H : forall o, In o ?l -> In o T |- _ => match eval cbn in l with context [XOver E ?b ?r] => apply (ON b r), IN; cbn; auto; fail end end).
  all: match goal with |- (rd _ _ + rd ?n ?t = _)%nat /\ _ => assert (R0 : exists z, rd n t = z) by (exists (rd n t); reflexivity); assert (M0 : exists z, matches E n t = z) by (exists (matches E n t); reflexivity); destruct R0 as (z1 & R0); destruct M0 as (z2 & M0);
    rewrite R0, M0; unfold rd, PropConsumerLife.read, with_number in R0; cbn [flat_map app filter length fst] in R0; unfold matches in M0; cbn [filter length] in M0; subst z1 z2 end.
  all: try (rewrite !Nat.add_0_r; split; [exact A1|exact A2]).
  all: match goal with |- context [s_msg E ?x] => let z := eval cbn in (s_msg E x) in change (s_msg E x) with z end; cbv iota.
  all: try (match goal with H : s_msg E _ = _ |- _ => rewrite H in A1, AC end; rewrite !Nat.add_0_r in *; split; [exact A1|discriminate]).
  - rewrite H3 in A1, AC. rewrite H0 in AC. cbn in AC. injection AC as -> _ _. split; [|discriminate].
    destruct (h_seq h =? n)%N; cbn [length]; lia.
  - rewrite H2 in A1, AC. rewrite H0 in AC. cbn in AC. injection AC as -> _ _.
    assert (D : (h_seq h =? n)%N = false).
    { destruct (N.eqb_spec (h_seq h) n) as [D|D]; [|reflexivity]. exfalso. rewrite D in H1.
      rewrite (i_owner _ _ _ I U n) in H1. pose proof (sends_matches E _ X n tr _ Q) as W. rewrite H1 in W.
      pose proof (BOUND tr _ Q) as B. unfold sd in B. lia. }
    rewrite D in A1. split; [lia|]. intros h0 m0 W. injection W as <- <-. apply N.eqb_neq. exact D.
  - rewrite !Nat.add_0_r. assert (W : rd n tr = matches E n tr) by (destruct H as [H|H]; rewrite H in A1; lia).
    destruct H0 as [-> | ->]; (split; [lia|discriminate]).
  - rewrite H in A1, A2. destruct H0 as [-> |(_ & H0)]; [|congruence]. rewrite !Nat.add_0_r in *. split; [exact A1|discriminate].
  - rewrite H in A1. split; [|discriminate]. destruct (h_seq h =? n)%N; cbn [length]; lia.
  - congruence.
  - assert (D : (h_seq h =? n)%N = false) by (apply N.eqb_neq; apply (CONF h m); [apply IN; left; reflexivity|exact H0]).
    rewrite H in A1. rewrite D. cbn [length]. split; [lia|discriminate].
Qed.
Lemma effs_all_taken s t s' : effs E s t s' -> forall tr rest, inv E tr s -> T = tr ++ t ++ rest -> all_taken n tr s -> all_taken n (tr ++ t) s'.
Proof.
  induction 1 as [|s t s1 t2 s2 F _ IH]; intros tr rest I Q A; [rewrite app_nil_r; exact A|].
  rewrite app_assoc. rewrite <- app_assoc in Q. apply (IH _ rest).
  - eapply eff_inv; eauto.
  - rewrite Q, <- app_assoc. reflexivity.
  - eapply eff_all_taken; eauto.
Qed.
Lemma runs_all_taken ls : forall s tr s' t, inv E tr s -> runs E ls s = Some (s', t) -> T = tr ++ t -> all_taken n tr s -> all_taken n T s'.
Proof.
  induction ls as [|l ls IH]; intros s tr s' t I R Q A; cbn in R.
  - injection R as <- <-. rewrite Q, app_nil_r. exact A.
  - destruct (fire E l s) as [[s1 t1]|] eqn:F; [|discriminate].
    destruct (runs E ls s1) as [[s2 t2]|] eqn:R2; [|discriminate]. injection R as <- <-.
    apply (IH s1 (tr ++ t1) s2 t2); [eapply effs_inv; [apply (fire_effs E _ _ _ _ F)|exact I]|exact R2|rewrite <- app_assoc; exact Q|].
    eapply effs_all_taken; [apply (fire_effs E _ _ _ _ F)|exact I|exact Q|exact A].
Qed.
End Whole.

Lemma effs_under_way s t s' : effs E s t s' -> forall tr, under_way tr s -> under_way (tr ++ t) s'.
Proof.
  induction 1 as [|s t s1 t2 s2 F _ IH]; intros tr U; [rewrite app_nil_r; exact U|].
  rewrite app_assoc. apply IH. eapply eff_under_way; eauto.
Qed.
Lemma runs_under_way ls : forall s tr s' t, runs E ls s = Some (s', t) -> under_way tr s -> under_way (tr ++ t) s'.
Proof.
  induction ls as [|l ls IH]; intros s tr s' t R U; cbn in R.
  - injection R as <- <-. rewrite app_nil_r. exact U.
  - destruct (fire E l s) as [[s1 t1]|] eqn:F; [|discriminate].
    destruct (runs E ls s1) as [[s2 t2]|] eqn:R2; [|discriminate]. injection R as <- <-.
    rewrite app_assoc. eapply IH; [exact R2|]. eapply effs_under_way; [apply (fire_effs E _ _ _ _ F)|exact U].
Qed.

(** a step either reads a message or sends one *)
Lemma fire_one_way l s s' t : fire E l s = Some (s', t) -> PropConsumerLife.read E t = [] \/ sent_up E t = [].
Proof.
  intros F. pose proof (PropConsumerLife.fire_buf E _ _ _ _ F) as B. destruct l; try (left; apply B).
  - destruct e; left; apply B.
  - right. cbn [fire] in F. destruct (s_msg E s); try discriminate F. injection F as F. unfold next_msg in F. destruct (next (s_buf E s)) as [[[h m]|] b]; [|injection F as <- <-; reflexivity].
    destruct (x_confirm E m); [injection F as <- <-; reflexivity|]. destruct (api_up E s); [injection F as <- <-; reflexivity|].
    unfold not_accepted, emit, dispatch in F. destruct (x_broadcast E m); injection F as <- <-; reflexivity.
Qed.
Lemma one_way_prefix tr t n : (rd n tr <= sd n tr)%nat -> (rd n (tr ++ t) <= sd n (tr ++ t))%nat -> PropConsumerLife.read E t = [] \/ sent_up E t = [] ->
  forall l r, t = l ++ r -> (rd n (tr ++ l) <= sd n (tr ++ l))%nat.
Proof.
  intros B1 B2 OW l r ->. rewrite app_assoc, rd_app, sd_app in B2. rewrite rd_app, sd_app in *.
  destruct OW as [O|O].
  - assert (Z : rd n l = 0%nat) by (unfold rd; unfold PropConsumerLife.read in *; rewrite flat_map_app in O; apply app_eq_nil in O; destruct O as (O & _); rewrite O; reflexivity). lia.
  - assert (Z : sd n l = 0%nat /\ sd n r = 0%nat) by (unfold sd; unfold sent_up in *; rewrite flat_map_app in O; apply app_eq_nil in O; destruct O as (O1 & O2); rewrite O1, O2; split; reflexivity). lia.
Qed.

(** No task of the consumer has anything to do: only its application, the transport
    or a timer can go on. *)
Definition idle (s : st) : Prop :=
  (forall a ok, fire E (LAct E a ok) s = None) /\ (forall ok, fire E (LApi E ok) s = None) /\
  fire E (LNext E) s = None /\ fire E (LAnswer E) s = None /\ fire E (LAuth E) s = None /\ fire E (LShut E) s = None.

Lemma idle_waits tr s a k sg : inv E tr s -> idle s -> api_up E s = true -> msg_up E s = true ->
  act E a (s_acts E s) = Some (k, sg) -> is_call E k -> s_msg E s = MIdle E /\ exists n, sg = WResp E n /\ owner E n tr <> None.
Proof.
  intros I (RA & RQ & RN & RW & RH & RS) U M A C.
  assert (Q0 : s_q E s = []).
  { destruct (s_q E s) as [|c q] eqn:Q; [reflexivity|exfalso]. specialize (RQ true). cbn [fire] in RQ. rewrite U, Q in RQ.
    destruct c; cbn [api_cmd] in RQ.
    - cbn [s_pend set_q] in RQ. destruct (pfind n _); discriminate RQ.
    - destruct (pfind n _); [|discriminate RQ]. destruct (act E n0 _) as [[k0 []]|]; try discriminate RQ.
      match type of RQ with context [let '(_, _) := ?x in _] => destruct x end. discriminate RQ.
    - destruct (msg_up E _); discriminate RQ.
    - destruct (act E a0 _) as [[k0 []]|]; discriminate RQ.
    - match type of RQ with context [s_shut E ?x] => change (s_shut E x) with (s_shut E s) in RQ; change (s_qshut E x) with (s_qshut E s) in RQ end.
      cbn [fire] in RS. destruct (s_shut E s); try discriminate RQ. destruct (s_qshut E s); [discriminate RQ|discriminate RS]. }
  assert (MI : s_msg E s = MIdle E).
  { pose proof (i_accepts _ _ _ I) as AC. unfold accepts_ok in AC. rewrite Q0, U in AC. cbn [fire] in RN, RW. unfold msg_up in M.
    destruct (s_msg E s) as [| |h m [[|]|]|]; try reflexivity; discriminate. }
  assert (QA : s_qauth E s = []).
  { cbn [fire] in RH. rewrite MI in RH. destruct (s_qauth E s); [reflexivity|discriminate RH]. }
  split; [exact MI|].
  assert (SG : stage_ok E k sg) by (eapply g_stage; [apply I|exact A]).
  specialize (RA a true). cbn [fire] in RA. unfold run_act in RA. rewrite A in RA.
  assert (SS : has_sender E a s = true -> exists x, expects E sg = Some x /\ In x (flat_map (p_snd a) (s_pend E s) ++ flat_map (h_snd a) (s_qshut E s) ++ g_snd E a s)).
  { intros HS. pose proof (i_senders _ _ _ I a) as S. rewrite A in S.
    assert (N : senders E a s <> []) by (intros Z; apply has_sender_iff in Z; congruence).
    destruct S as [S|(x & X1 & X2)]; [contradiction|]. exists x. split; [exact X1|]. unfold senders in X2. rewrite Q0, QA in X2. cbn [flat_map app] in X2. rewrite X2. left. reflexivity. }
  assert (ST : forall x, In x (flat_map (p_snd a) (s_pend E s) ++ flat_map (h_snd a) (s_qshut E s) ++ g_snd E a s) -> x = SStop \/ exists n, x = SReq n /\ In (n, a) (s_pend E s)).
  { intros x J. rewrite !in_app_iff, !in_flat_map in J. unfold p_snd, h_snd, g_snd, one in J. destruct J as [([n b] & J1 & J2)|[(b & J1 & J2)|J]].
    - cbn [fst snd] in J2. destruct (Nat.eqb_spec a b) as [->|]; [|destruct J2]. destruct J2 as [<-|[]]. right. eauto.
    - destruct (Nat.eqb a b); [|destruct J2]. destruct J2 as [<-|[]]. auto.
    - destruct (s_shut E s); try destruct J. destruct (s_over E s); [destruct J|]. destruct (Nat.eqb a a0); [|destruct J]. destruct J as [<-|[]]. auto. }
  destruct sg; try discriminate RA.
  - destruct (has_sender E a s); [|discriminate RA]. destruct (SS eq_refl) as (x & X1 & X2). injection X1 as <-. destruct (ST _ X2) as [X|(n & X & _)]; discriminate X.
  - destruct (has_sender E a s); [|discriminate RA]. destruct (SS eq_refl) as (x & X1 & X2). injection X1 as <-. destruct (ST _ X2) as [X|(n0 & X & _)]; discriminate X.
  - destruct (has_sender E a s); [|discriminate RA]. destruct (SS eq_refl) as (x & X1 & X2). injection X1 as <-. destruct (ST _ X2) as [X|(n0 & X & J)]; [discriminate X|]. injection X as <-.
    exists n. split; [reflexivity|]. rewrite <- (i_owner _ _ _ I U n). clear -J.
    induction (s_pend E s) as [|[j b] l IH]; [destruct J|]. cbn [pfind]. destruct (N.eqb_spec n j) as [->|D]; [discriminate|].
    destruct J as [J|J]; [congruence|]. apply IH. exact J.
  - cbn [stage_ok] in SG. rewrite SG in C. destruct C as (r & x & [C|C]); discriminate C.
Qed.
End Consumer.

(** ** The producer *)
Section Producer.
Import ProducerModel ProducerProofs ProducerMore.
Variable E : env.
Variable u : uuid.

Lemma all_answered n t : n < 2 ^ 32 -> Fut E t -> reasoned E t ->
  (forall k p, ~ In (OUnpacked E (Some u) k p) t) -> (forall k p, ~ In (OSend E u k p false) t) ->
  (forall t1 h m t2, t = t1 ++ OHandle E u h m :: t2 -> h_seq h = n ->
     (exists r ids res t3, t2 = OCall E u r m ids res :: t3) \/ (exists b ids t3, t2 = OBeacon E u b m ids true :: t3)) ->
  (length (with_number n (handled_by E u t)) <= length (with_carried n (sent_down E u t)))%nat.
Proof.
  intros B F RS NU NS SV.
  enough (G : forall len post pre, (length post <= len)%nat -> t = pre ++ post ->
    (length (with_number n (handled_by E u post)) <= length (with_carried n (sent_down E u post)))%nat) by (apply (G (length t) t []); [lia|reflexivity]).
  induction len as [|len IH]; intros post pre L Q; [destruct post; [apply le_n|cbn in L; lia]|].
  destruct post as [|o post]; [apply le_n|]. cbn [length] in L.
  assert (REST : with_number n (handled_by E u [o]) = [] ->
    (length (with_number n (handled_by E u (o :: post))) <= length (with_carried n (sent_down E u (o :: post))))%nat).
  { intros Z. change (o :: post) with ([o] ++ post). unfold handled_by, sent_down, with_number, with_carried in *. rewrite !flat_map_app, !filter_app, !app_length, Z.
    pose proof (IH post (pre ++ [o])) as W. rewrite <- app_assoc in W. specialize (W ltac:(lia) Q). cbn [length]. lia. }
  destruct o as [| |v h m| | | | | | | | | | |]; try (apply REST; reflexivity).
  destruct (N.eqb_spec v u) as [->|V]; [|apply REST; unfold handled_by; cbn [flat_map]; destruct (N.eqb_spec v u); [congruence|reflexivity]].
  destruct (N.eqb_spec (h_seq h) n) as [Hn|Hn].
  2:{ apply REST. unfold handled_by. cbn [flat_map]. rewrite N.eqb_refl. cbn [with_number filter app fst]. apply N.eqb_neq in Hn. rewrite Hn. reflexivity. }
  (* the exchange *)
  assert (EX : forall x t3 p t4, post = x :: t3 -> t3 = OSend E u (h_seq h) p true :: t4 -> handled_by E u [x] = [] -> sent_down E u [x] = [] ->
    (length (with_number n (handled_by E u (OHandle E u h m :: post))) <= length (with_carried n (sent_down E u (OHandle E u h m :: post))))%nat).
  { intros x t3 p t4 -> -> Hx Sx.
    change (OHandle E u h m :: x :: OSend E u (h_seq h) p true :: t4) with ([OHandle E u h m] ++ [x] ++ [OSend E u (h_seq h) p true] ++ t4).
    unfold handled_by, sent_down in *. rewrite !flat_map_app, Hx, Sx. cbn [flat_map app]. rewrite !N.eqb_refl. cbn [app].
    unfold with_number, with_carried in *. cbn [filter fst]. rewrite Hn, (N.mod_small n _ B), !N.eqb_refl. cbn [length]. apply le_n_S.
    apply (IH t4 (pre ++ [OHandle E u h m; x; OSend E u (h_seq h) p true])); [cbn [length] in L; lia|].
    rewrite Q, <- app_assoc. reflexivity. }
  destruct (SV _ _ _ _ Q Hn) as [(r & ids & res & t3 & ->)|(b & ids & t3 & ->)].
  - assert (Q2 : t = (pre ++ [OHandle E u h m]) ++ OCall E u r m ids res :: t3) by (rewrite Q, <- app_assoc; reflexivity).
    assert (IN : forall o, In o t3 -> In o t) by (intros o J; rewrite Q2, in_app_iff; right; right; exact J).
    destruct (F _ _ _ Q2) as (seq & [(x & rest & _ & ->)|[(rest & ->)|[(rest & ->)|(os & rest & -> & _)]]]).
    + exfalso. eapply NU. apply IN. left. reflexivity.
    + exfalso. eapply NU. apply IN. left. reflexivity.
    + exfalso. eapply NS. apply IN. left. reflexivity.
    + assert (Q3 : t = (pre ++ [OHandle E u h m; OCall E u r m ids res]) ++ OSend E u seq (PAnswer (answer_of E res)) true :: os ++ ODeferred E :: rest) by (rewrite Q, <- app_assoc; reflexivity).
      destruct (RS _ _ _ _ _ _ Q3) as (t0 & h' & m' & r' & ids' & res' & W1 & W2 & _).
      change [OHandle E u h m; OCall E u r m ids res] with ([OHandle E u h m] ++ [OCall E u r m ids res]) in W1.
      change [OHandle E u h' m'; OCall E u r' m' ids' res'] with ([OHandle E u h' m'] ++ [OCall E u r' m' ids' res']) in W1.
      rewrite !app_assoc in W1. apply app_inj_tail in W1. destruct W1 as (W1 & _). apply app_inj_tail in W1. destruct W1 as (_ & W1). injection W1 as <- <-.
      subst seq. eapply EX; reflexivity.
  - assert (Q2 : t = (pre ++ [OHandle E u h m]) ++ OBeacon E u b m ids true :: t3) by (rewrite Q, <- app_assoc; reflexivity).
    assert (IN : forall o, In o t3 -> In o t) by (intros o J; rewrite Q2, in_app_iff; right; right; exact J).
    destruct (F _ _ _ Q2 eq_refl) as (seq & [(rest & ->)|[(rest & ->)|(rest & ->)]]).
    + exfalso. eapply NU. apply IN. left. reflexivity.
    + exfalso. eapply NS. apply IN. left. reflexivity.
    + assert (Q3 : t = (pre ++ [OHandle E u h m; OBeacon E u b m ids true]) ++ OSend E u seq PBeacon true :: ODeferred E :: rest) by (rewrite Q, <- app_assoc; reflexivity).
      destruct (RS _ _ _ _ _ _ Q3) as (t0 & h' & m' & b' & ids' & W1 & W2 & _).
      change [OHandle E u h m; OBeacon E u b m ids true] with ([OHandle E u h m] ++ [OBeacon E u b m ids true]) in W1.
      change [OHandle E u h' m'; OBeacon E u b' m' ids' true] with ([OHandle E u h' m'] ++ [OBeacon E u b' m' ids' true]) in W1.
      rewrite !app_assoc in W1. apply app_inj_tail in W1. destruct W1 as (W1 & _). apply app_inj_tail in W1. destruct W1 as (_ & W1). injection W1 as <- <-.
      subst seq. eapply EX; reflexivity.
Qed.
End Producer.

(** ** Both *)
Section Both.
Variable PE : ProducerModel.env.
Variable CE : ConsumerModel.cenv.
Variable K : codec PE CE.
Hypothesis COMPAT : compatible PE CE K.
Variable u : N.

Lemma reach_fut A y0 y : fresh PE CE u y0 -> reach PE CE K A u y0 y -> ProducerMore.Fut PE (y_pt _ _ y).
Proof.
  intros (_ & F & _). induction 1 as [|y1 y2 R IH M]; [rewrite F; apply ProducerMore.Fut_nil|].
  destruct M as [y e t s' r qs _ _ S _|y n t s' r qs _ _ S _|y n x ok qs t _|y l s' t qs _ _ _ _|y n s' t qs l _ _ _]; cbn [y_pt]; try exact IH; try (apply ProducerMore.Fut_app; [exact IH|]).
  - exact (ProducerProofs.wp_elim _ _ _ _ _ _ _ (ProducerMore.fut_step PE e _) S).
  - exact (ProducerProofs.wp_elim _ _ _ _ _ _ _ (ProducerMore.fut_step PE _ _) S).
  - apply ProducerMore.Fut_send, ProducerMore.Fut_nil.
Qed.

Lemma handled_bound y ups downs : inv PE CE K u y ups downs -> forall h m, In (h, m) (handled_by PE u (y_pt _ _ y)) -> h_seq h < 2 ^ 32.
Proof.
  intros I h m W. pose proof (ups_arrive PE CE K COMPAT _ _ (i_ups _ _ _ _ _ _ _ I)) as FU. destruct (i_hand _ _ _ _ _ _ _ I) as (more & H). rewrite H in FU.
  apply Forall2_app_inv_l in FU. destruct FU as (done & rest & FU & _ & _). destruct (in_split _ _ W) as (x1 & x2 & W'). rewrite W' in FU.
  apply Forall2_app_inv_l in FU. destruct FU as (? & ? & _ & FU & _). inversion FU as [|? np ? ? (E & _)]; subst. cbn [fst] in E. rewrite E. apply N.mod_lt. discriminate.
Qed.
Lemma forall2_numbered {A B} (R : header * A -> N * B -> Prop) n l k : (forall x z, R x z -> h_seq (fst x) = fst z mod 2 ^ 32) -> Forall2 R l k ->
  length (with_number n l) = length (with_carried n k).
Proof. intros C F. eapply forall2_length. eapply forall2_filter; [|exact F]. intros x z H. cbn. rewrite (C _ _ H). reflexivity. Qed.
Lemma carried_app {A} n (a b : list (N * A)) : length (with_carried n (a ++ b)) = (length (with_carried n a) + length (with_carried n b))%nat.
Proof. unfold with_carried. rewrite filter_app, app_length. reflexivity. Qed.

(** what the consumer has read it has been sent, and what it has been sent answers
    what it has sent *)
Lemma chain y ups downs n : inv PE CE K u y ups downs -> reasoned PE (y_pt _ _ y) -> n <> 0 ->
  (forall j x, In (ProducerModel.OSend PE u j (ProducerModel.PBroadcast x) true) (y_pt _ _ y) -> j mod 2 ^ 32 <> n) ->
  (rd CE n (y_ct _ _ y) <= length (with_carried n (sent_down PE u (y_pt _ _ y))))%nat /\
  (length (with_carried n (sent_down PE u (y_pt _ _ y))) <= length (with_number n (handled_by PE u (y_pt _ _ y))))%nat /\
  (length (with_number n (handled_by PE u (y_pt _ _ y))) <= sd CE n (y_ct _ _ y))%nat.
Proof.
  intros I RS N0 NB.
  pose proof (ups_arrive PE CE K COMPAT _ _ (i_ups _ _ _ _ _ _ _ I)) as FU. destruct (i_hand _ _ _ _ _ _ _ I) as (more & H). rewrite H in FU.
  apply Forall2_app_inv_l in FU. destruct FU as (done & rest & FU & _ & SP).
  destruct (down_ok PE CE K COMPAT _ _ (i_downs _ _ _ _ _ _ _ I)) as (OK & GOOD).
  destruct (PropConsumerLife.reading CE downs [] OK (goods_calm _ _ _ GOOD) incomplete_nil _ _ _ (y_downs _ _ y) (i_run _ _ _ _ _ _ _ I)) as (j & _ & _ & RR & _).
  { rewrite app_nil_r. apply I. }
  pose proof (downs_arrive PE CE K COMPAT _ _ (i_downs _ _ _ _ _ _ _ I)) as FD. rewrite <- (firstn_skipn j downs), flat_map_app, <- RR, <- app_assoc in FD.
  apply Forall2_app_inv_l in FD. destruct FD as (d1 & d2 & FD & _ & SD).
  destruct (replies PE u n N0 _ RS (handled_bound _ _ _ I) NB) as (R & R1 & R2 & _).
  split; [|split].
  - unfold rd. rewrite (forall2_numbered _ n _ _ (fun x z W => proj1 W) FD), SD, carried_app. lia.
  - rewrite <- carrying_length, <- R1, map_length. pose proof (sub_length _ _ R2) as L. rewrite map_length, numbered_length in L. exact L.
  - unfold sd. rewrite (forall2_numbered _ n _ _ (fun x z W => proj1 W) FU), SP, carried_app. lia.
Qed.

Lemma read_bound y0 y n : fresh PE CE u y0 -> reach PE CE K (patient CE) u y0 y -> n <> 0 ->
  (forall j x, In (ProducerModel.OSend PE u j (ProducerModel.PBroadcast x) true) (y_pt _ _ y) -> j mod 2 ^ 32 <> n) ->
  forall t1 t2, y_ct _ _ y = t1 ++ t2 -> (rd CE n t1 <= sd CE n t1)%nat.
Proof.
  intros FR R N0. induction R as [|y1 y2 R IH M]; intros NB t1 t2 Q.
  { destruct FR as (_ & _ & _ & _ & _ & F & _). rewrite F in Q. symmetry in Q. apply app_eq_nil in Q. destruct Q as (-> & _). apply le_n. }
  assert (NB1 : forall j x, In (ProducerModel.OSend PE u j (ProducerModel.PBroadcast x) true) (y_pt _ _ y1) -> j mod 2 ^ 32 <> n).
  { intros j x J. apply (NB j x). destruct M; cbn [y_pt]; try exact J; apply in_app_iff; auto. }
  specialize (IH NB1). assert (R2 : reach PE CE K (patient CE) u y0 y2) by (eapply reach_move; eauto).
  destruct (inv_reach PE CE K u COMPAT y0 y2 FR R2) as (ups & downs & I2).
  destruct (chain _ _ _ n I2 (reach_reasoned PE CE K u _ y0 y2 FR R2) N0 NB) as (C1 & C2 & C3).
  assert (C : forall l s' t, ConsumerModel.fire CE l (y_c _ _ y1) = Some (s', t) -> y_ct _ _ y2 = y_ct _ _ y1 ++ t -> (rd CE n t1 <= sd CE n t1)%nat).
  { intros l s' t F E. rewrite E in Q. destruct (app_eq_app _ _ _ _ Q) as (k & [(W1 & W2)|(W1 & W2)]).
    - apply (IH t1 k W1).
    - subst t1. apply (one_way_prefix CE (y_ct _ _ y1) t n) with (r := t2); [apply (IH _ [] (eq_sym (app_nil_r _)))|rewrite <- E; lia|exact (fire_one_way CE _ _ _ _ F)|exact W2]. }
  destruct M; cbn [y_ct] in *; try (apply (IH t1 t2 Q)); eapply C; [eassumption|reflexivity|eassumption|reflexivity].
Qed.

(** the confirmation carries no number *)
Lemma confirm_unnumbered y ups downs n h m : inv PE CE K u y ups downs -> reasoned PE (y_pt _ _ y) -> n <> 0 ->
  In (ConsumerModel.XIn CE h m) (y_ct _ _ y) -> ConsumerModel.x_confirm CE m = true -> h_seq h <> n.
Proof.
  intros I RS N0 J C.
  destruct (down_ok PE CE K COMPAT _ _ (i_downs _ _ _ _ _ _ _ I)) as (OK & GOOD).
  destruct (PropConsumerLife.reading CE downs [] OK (goods_calm _ _ _ GOOD) incomplete_nil _ _ _ (y_downs _ _ y) (i_run _ _ _ _ _ _ _ I)) as (j & _ & _ & RR & _).
  { rewrite app_nil_r. apply I. }
  pose proof (downs_arrive PE CE K COMPAT _ _ (i_downs _ _ _ _ _ _ _ I)) as FD. rewrite <- (firstn_skipn j downs), flat_map_app, <- RR, <- app_assoc in FD.
  assert (R : In (h, m) (PropConsumerLife.read CE (y_ct _ _ y))) by (apply in_flat_map; eexists; split; [exact J|left; reflexivity]).
  destruct (in_split _ _ R) as (x1 & x2 & W). rewrite W, <- app_assoc in FD. apply Forall2_app_inv_l in FD. destruct FD as (d1 & d2 & _ & FD & SD).
  inversion FD as [|? [k p] ? ? (E1 & E2) _]; subst. cbn [fst snd] in *.
  assert (S : In (k, p) (sent_down PE u (y_pt _ _ y))) by (rewrite SD; apply in_elt).
  unfold sent_down in S. apply in_flat_map in S. destruct S as (o & S1 & S2). destruct o; try destruct S2. destruct ok; [|destruct S2].
  destruct (N.eqb_spec u0 u) as [->|]; [|destruct S2]. destruct S2 as [S2|[]]. injection S2 as -> ->.
  destruct (in_split _ _ S1) as (t1 & t2 & QQ). pose proof (RS _ _ _ _ _ _ QQ) as Z.
  destruct (y_down _ _ _ COMPAT p) as (_ & _ & m' & Gm & D). rewrite E2 in Gm. injection Gm as <-.
  destruct p; try (destruct D as (D & _); congruence). cbn [reason] in Z. subst k. rewrite E1. intros W2. apply N0. rewrite <- W2. reflexivity.
Qed.
End Both.
