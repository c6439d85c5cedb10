(** Invariants of the consumer: identifiers, ended tasks, senders, stages. *)
From Coq Require Import List NArith Bool Lia Arith.
From Verif Require Import Bytes WireModel FrameModel.
From Verif Require Import ConsumerModel ConsumerProofs.
Import ListNotations.

Section Inv.
Variable E : cenv.
Notation st := (st E).
Notation out := (out E).
Notation acts := (s_acts E).

(** * Identifiers *)
Definition ids_ok (s : st) : Prop :=
  NoDup (map fst (acts s)) /\ forall a, In a (map fst (acts s)) -> (a < s_next E s)%nat.

Lemma ids_go (s : st) a k sg : ids_ok s -> ids_ok (go E a k sg s).
Proof. unfold ids_ok. cbn. rewrite put_fst. auto. Qed.
Lemma ids_gone (s : st) a : ids_ok s -> ids_ok (gone E a s).
Proof.
  unfold ids_ok. cbn. intros [N L]. split; [apply del_nodup; assumption|].
  intros b I. apply L. eapply del_incl; eauto.
Qed.
Lemma ids_add (s : st) k : ids_ok s -> ids_ok (add_act E k s).
Proof.
  unfold ids_ok. cbn. intros [N L]. split.
  - constructor; [|assumption]. intros I. apply L in I. lia.
  - intros b [I|I]; [lia|]. apply L in I. lia.
Qed.
Lemma ids_eq (s s' : st) : acts s' = acts s -> s_next E s' = s_next E s -> ids_ok s -> ids_ok s'.
Proof. unfold ids_ok. intros -> ->. auto. Qed.

Lemma eff_ids s t s' : eff E s t s' -> ids_ok s -> ids_ok s'.
Proof.
  intros F I. destruct F.
  all: try (apply (ids_eq s); [reflexivity|reflexivity|exact I]).
  all: try (apply (ids_go s); exact I).
  all: try (apply (ids_gone s); exact I).
  all: try (apply (ids_add s); exact I).
Qed.

Lemma fresh_act (s : st) : ids_ok s -> act E (s_next E s) (acts s) = None.
Proof. intros [_ L]. apply not_in_act. intros I. apply L in I. lia. Qed.
Lemma act_lt (s : st) a x : ids_ok s -> act E a (acts s) = Some x -> (a < s_next E s)%nat.
Proof. intros [_ L] A. apply L. eapply act_in; eauto. Qed.

(** * Tasks that have ended hold nothing *)
Record tasks_ok (s : st) : Prop := {
  k_api : api_up E s = false -> s_q E s = [] /\ s_pend E s = [] /\ s_cancel E s = true;
  k_msg : msg_up E s = false -> s_qauth E s = [] /\ s_cancel E s = true;
  k_shut : s_shut E s <> ShWait -> s_qshut E s = [];
  k_got : forall a, s_shut E s = ShGot a -> s_cancel E s = true;
  k_cli : s_cli E s <> None -> s_cancel E s = true;
  k_done : s_done E s = true -> api_up E s = false /\ msg_up E s = false /\ s_cli E s <> None;
  k_over : s_over E s = true -> s_done E s = true /\ s_emit E s = [] /\ s_hand E s = None /\ s_shut E s <> ShWait
}.

Lemma up_false (s : st) : msg_up E s = false -> exists r, s_msg E s = MEnd E r.
Proof. unfold msg_up. destruct (s_msg E s); try discriminate; eauto. Qed.
Lemma up_true (s : st) : (forall r, s_msg E s <> MEnd E r) -> msg_up E s = true.
Proof. unfold msg_up. destruct (s_msg E s); auto. intros H. elim (H r). reflexivity. Qed.

(** transitions that do not touch what [tasks_ok] speaks about *)
Lemma tasks_eq (s s' : st) : tasks_ok s ->
  s_q E s' = s_q E s -> s_pend E s' = s_pend E s -> s_api E s' = s_api E s -> s_msg E s' = s_msg E s ->
  s_qauth E s' = s_qauth E s -> s_cancel E s' = s_cancel E s -> s_qshut E s' = s_qshut E s ->
  s_shut E s' = s_shut E s -> s_cli E s' = s_cli E s -> s_done E s' = s_done E s ->
  s_over E s' = s_over E s -> s_emit E s' = s_emit E s -> s_hand E s' = s_hand E s -> tasks_ok s'.
Proof.
  intros [K1 K2 K3 K4 K5 K6 K7] H1 H2 H3 H4 H5 H6 H7 H8 H9 H10 H11 H12 H13.
  unfold api_up, msg_up in *. split; unfold api_up, msg_up; rewrite ?H1, ?H2, ?H3, ?H4, ?H5, ?H6, ?H7, ?H8, ?H9, ?H10, ?H11, ?H12, ?H13; assumption.
Qed.

Lemma eff_tasks s t s' : eff E s t s' -> tasks_ok s -> tasks_ok s'.
Proof.
  intros F K.
  assert (OV : s_over E s = true -> s_done E s = true) by (intros O; apply (k_over s K O)).
  destruct F.
  all: try (apply (tasks_eq s); [exact K|reflexivity..]).
  all: try match goal with U : api_up E ?x = true |- _ =>
      assert (DN : s_done E x = false)
        by (destruct (s_done E x) eqn:D; [destruct (k_done x K D); congruence|reflexivity]);
      assert (OF : s_over E x = false)
        by (destruct (s_over E x) eqn:O; [specialize (OV eq_refl); congruence|reflexivity]) end.
  all: try match goal with U : s_msg E ?x = _ |- _ =>
      assert (MU : msg_up E x = true) by (unfold msg_up; rewrite U; reflexivity);
      assert (DN : s_done E x = false)
        by (destruct (s_done E x) eqn:D; [destruct (k_done x K D) as [? []]; congruence|reflexivity]);
      assert (OF : s_over E x = false)
        by (destruct (s_over E x) eqn:O; [specialize (OV eq_refl); congruence|reflexivity]) end.
  all: destruct K as [K1 K2 K3 K4 K5 K6 K7].
  all: split; cbn; auto; try congruence; try discriminate.
  all: try solve [intros Q; match type of Q with
       | api_up _ (_ ?x) = _ => idtac
       | _ => idtac end;
       first [destruct (K1 Q) as (?&?&?); auto | destruct (K2 Q); auto]].
  all: try match goal with |- api_up E ?x = false -> _ =>
     let Q := fresh in intros Q; 
     match goal with U : api_up E ?y = true |- _ => change (api_up E y = false) in Q; congruence end end.
  all: try match goal with |- msg_up E ?x = false -> _ =>
     let Q := fresh in intros Q; 
     match goal with U : msg_up E ?y = true |- _ => change (msg_up E y = false) in Q; congruence end end.
  - intros Q. destruct H0 as [-> | ->]; discriminate Q.
  - intros D. destruct (K6 D) as (?&Q&?). unfold msg_up in Q. destruct H as [H|H]; rewrite H in Q; discriminate.
  - intros O. destruct (K6 (OV O)) as (?&?&?). destruct H as [H|H]; congruence.
  - intros D. destruct (K6 D) as (?&?&?). congruence.
  - intros O. destruct (K7 O) as (?&?&?&?). congruence.
  - intros O. destruct (K7 O) as (?&?&?&?). congruence.
  - intros O. destruct (K7 O) as (?&?&?&?). congruence.
  - intros _. repeat split. congruence.
  - intros _. split; [reflexivity|split; [reflexivity|discriminate]].
  - intros _. repeat split. discriminate.
  - intros O. destruct (K7 O) as (?&Q&?&?). congruence.
  - intros O. destruct (K7 O) as (?&Q&?&?). congruence.
Qed.

(** * The question to the api task *)
Fixpoint accepts (q : list (cmd E)) : list (N * x_msg E) :=
  match q with
  | [] => []
  | QAccept _ n m :: q => (n, m) :: accepts q
  | _ :: q => accepts q
  end.
Lemma accepts_app q q' : accepts (q ++ q') = accepts q ++ accepts q'.
Proof. induction q as [|c q IH]; cbn; [reflexivity|]. destruct c; cbn; rewrite IH; reflexivity. Qed.

Definition accepts_ok (s : st) : Prop :=
  accepts (s_q E s) =
  match s_msg E s with MWait _ h m None => if api_up E s then [(h_seq h, m)] else [] | _ => [] end.

Lemma eff_accepts s t s' : eff E s t s' -> tasks_ok s -> accepts_ok s -> accepts_ok s'.
Proof.
  intros F K A. unfold accepts_ok in *. destruct F; cbn; auto.
  all: try match goal with U : api_up E ?x = true |- context [api_up E ?y] => change (api_up E y) with (api_up E x); rewrite U in * end.
  all: try match goal with U : s_q E ?x = _ |- _ => rewrite U in A; cbn in A end.
  all: try match goal with U : s_msg E ?x = _ |- _ => rewrite U in A; cbn in A end.
  all: try assumption.
  all: try (rewrite accepts_app; cbn; rewrite app_nil_r; assumption).
  all: try (rewrite accepts_app, A; cbn; reflexivity).
  all: try solve [destruct (s_msg E s) as [| |? ? [|]|]; auto].
  - rewrite H in A. injection A. auto.
  - rewrite H in A. injection A. auto.
  - destruct H as [H|H], H0; subst; rewrite H in A; exact A.
  - destruct ans as [b|]; [destruct H0 as [H0|[H0 _]]; [exact A|discriminate]|].
    destruct H0 as [H0|[_ H0]]; [discriminate|]. rewrite H0 in A. exact A.
  - destruct (k_api s K H1) as (Q&_&_). rewrite Q.
    match goal with |- _ = (if ?b then _ else _) => change b with (api_up E s) end. rewrite H1. reflexivity.
Qed.

(** * Senders *)
Inductive sender := SSeq | SUuid | SReq (n : N) | SStop.

Definition one {A} (a b : nat) (x : A) : list A := if Nat.eqb a b then [x] else [].
Definition q_snd (a : nat) (c : cmd E) : list sender :=
  match c with
  | QRequest _ n _ b => one a b (SReq n) | QUuid _ b => one a b SUuid
  | QSeq _ b => one a b SSeq | QShutdown _ b => one a b SStop | QAccept _ _ _ => []
  end.
Definition p_snd (a : nat) (x : N * nat) : list sender := one a (snd x) (SReq (fst x)).
Definition a_snd (a : nat) (x : amsg) : list sender := match x with AGet b => one a b SUuid | ASet _ => [] end.
Definition h_snd (a b : nat) : list sender := one a b SStop.
Definition g_snd (a : nat) (s : st) : list sender :=
  match s_shut E s with ShGot b => if s_over E s then [] else one a b SStop | _ => [] end.
Definition senders (a : nat) (s : st) : list sender :=
  flat_map (q_snd a) (s_q E s) ++ flat_map (p_snd a) (s_pend E s) ++ flat_map (a_snd a) (s_qauth E s)
  ++ flat_map (h_snd a) (s_qshut E s) ++ g_snd a s.

Lemma existsb_flat {A B} (f : A -> bool) (g : A -> list B) l :
  (forall x, f x = false <-> g x = []) -> (existsb f l = false <-> flat_map g l = []).
Proof.
  intros H. induction l as [|x l IH]; cbn; [tauto|].
  rewrite orb_false_iff, IH, H. split; [intros [-> ->]; reflexivity|apply app_eq_nil].
Qed.
Lemma one_nil {A} a b (x : A) : Nat.eqb a b = false <-> one a b x = [].
Proof. unfold one. destruct (Nat.eqb a b); split; congruence. Qed.

Lemma has_sender_iff a s : has_sender E a s = false <-> senders a s = [].
Proof.
  unfold has_sender, senders. rewrite !orb_false_iff.
  assert (Q := existsb_flat (is_for E a) (q_snd a) (s_q E s)).
  assert (P := existsb_flat (fun x => Nat.eqb a (snd x)) (p_snd a) (s_pend E s)).
  assert (A := existsb_flat (fun x => match x with AGet b => Nat.eqb a b | ASet _ => false end) (a_snd a) (s_qauth E s)).
  assert (H := existsb_flat (Nat.eqb a) (h_snd a) (s_qshut E s)).
  rewrite Q, P, A, H.
  2: intros b; apply one_nil.
  2: intros [r|b]; cbn; [tauto|apply one_nil].
  2: intros [n b]; apply one_nil.
  2: intros [n p b|n m|b|b|b]; cbn; try apply one_nil; tauto.
  assert (G : (match s_shut E s with ShGot b => Nat.eqb a b && negb (s_over E s) | _ => false end = false) <-> g_snd a s = []).
  { unfold g_snd. destruct (s_shut E s); [tauto| |tauto]. destruct (s_over E s); cbn.
    - rewrite andb_false_r. tauto.
    - rewrite andb_true_r. apply one_nil. }
  rewrite G. split.
  - intros [[[[-> ->] ->] ->] ->]. reflexivity.
  - intros Z. apply app_eq_nil in Z. destruct Z as [-> Z]. apply app_eq_nil in Z. destruct Z as [-> Z].
    apply app_eq_nil in Z. destruct Z as [-> Z]. apply app_eq_nil in Z. destruct Z as [-> ->]. auto.
Qed.

Definition expects (sg : stage E) : option sender :=
  match sg with
  | WSeq _ => Some SSeq | WUuid _ _ => Some SUuid | WResp _ n => Some (SReq n) | WStop _ => Some SStop
  | _ => None
  end.

Definition senders_ok (s : st) : Prop := forall a,
  match act E a (acts s) with
  | Some (k, sg) => senders a s = [] \/ exists x, expects sg = Some x /\ senders a s = [x]
  | None => senders a s = [] \/ ((a < s_next E s)%nat /\ exists x, senders a s = [x])
  end.

(** components equal up to the parts shown *)
Lemma senders_eq (s s' : st) a : s_q E s' = s_q E s -> s_pend E s' = s_pend E s -> s_qauth E s' = s_qauth E s ->
  s_qshut E s' = s_qshut E s -> s_shut E s' = s_shut E s -> s_over E s' = s_over E s ->
  senders a s' = senders a s.
Proof. unfold senders, g_snd. intros -> -> -> -> -> ->. reflexivity. Qed.

Lemma senders_push (s : st) a c s0 : s_q E s0 = s_q E s -> s_pend E s0 = s_pend E s -> s_qauth E s0 = s_qauth E s ->
  s_qshut E s0 = s_qshut E s -> s_shut E s0 = s_shut E s -> s_over E s0 = s_over E s ->
  (senders a s = [] -> senders a (push_q E c s0) = q_snd a c) /\
  (q_snd a c = [] -> senders a (push_q E c s0) = senders a s).
Proof.
  intros H1 H2 H3 H4 H5 H6. unfold senders, g_snd. cbn. rewrite H1, H2, H3, H4, H5, H6.
  rewrite flat_map_app. cbn. rewrite app_nil_r. split.
  - intros Z. apply app_eq_nil in Z. destruct Z as [-> Z]. rewrite Z. cbn. apply app_nil_r.
  - intros ->. rewrite app_nil_r. reflexivity.
Qed.

Lemma sub_single {A} (l1 l2 l3 : list A) x : l1 ++ l2 ++ l3 = [x] -> (l1 ++ l3 = [] \/ l1 ++ l3 = [x]).
Proof.
  destruct l1 as [|y l1]; cbn.
  - destruct l2 as [|z l2]; cbn; [auto|]. intros [= -> H]. apply app_eq_nil in H. destruct H as [-> ->]. auto.
  - intros [= -> H]. apply app_eq_nil in H. destruct H as [-> H]. apply app_eq_nil in H. destruct H as [-> ->]. auto.
Qed.

Lemma one_same {A} a (x : A) : one a a x = [x].
Proof. unfold one. rewrite Nat.eqb_refl. reflexivity. Qed.
Lemma one_other {A} a b (x : A) : a <> b -> one a b x = [].
Proof. intros D. apply Nat.eqb_neq in D. unfold one. rewrite D. reflexivity. Qed.

Lemma pdel_other b n p a : pfind n p = Some a -> a <> b -> flat_map (p_snd b) (pdel n p) = flat_map (p_snd b) p.
Proof.
  induction p as [|[k c] p IH]; cbn; [discriminate|].
  destruct (N.eqb n k) eqn:Q; intros F D.
  - injection F as ->. unfold p_snd at 2. cbn. rewrite one_other; auto.
  - cbn. rewrite IH; auto.
Qed.
Lemma pdel_same n p a : pfind n p = Some a -> exists l1 l2,
  flat_map (p_snd a) p = l1 ++ SReq n :: l2 /\ flat_map (p_snd a) (pdel n p) = l1 ++ l2.
Proof.
  induction p as [|[k c] p IH]; cbn; [discriminate|].
  destruct (N.eqb n k) eqn:Q; intros F.
  - injection F as ->. apply N.eqb_eq in Q. subst. exists [], (flat_map (p_snd a) p).
    unfold p_snd at 1. cbn. rewrite one_same. auto.
  - destruct (IH F) as (l1&l2&H1&H2). exists (p_snd a (k, c) ++ l1), l2. cbn. rewrite H1, H2, <- !app_assoc. auto.
Qed.

(** what a sender list with at most one element may lose *)
Lemma shrink (a : nat) (s s' : st) : acts s' = acts s -> s_next E s' = s_next E s ->
  (senders a s' = [] \/ senders a s' = senders a s) ->
  match act E a (acts s) with
  | Some (k, sg) => senders a s = [] \/ exists x, expects sg = Some x /\ senders a s = [x]
  | None => senders a s = [] \/ ((a < s_next E s)%nat /\ exists x, senders a s = [x])
  end ->
  match act E a (acts s') with
  | Some (k, sg) => senders a s' = [] \/ exists x, expects sg = Some x /\ senders a s' = [x]
  | None => senders a s' = [] \/ ((a < s_next E s')%nat /\ exists x, senders a s' = [x])
  end.
Proof. intros -> -> [Q|Q]; rewrite Q; [destruct (act E a (acts s)) as [[? ?]|]; auto|auto]. Qed.

Lemma at_most (s : st) a : senders_ok s -> senders a s = [] \/ exists x, senders a s = [x].
Proof.
  intros S. specialize (S a). destruct (act E a (acts s)) as [[k sg]|].
  - destruct S as [S|(x&_&S)]; eauto.
  - destruct S as [S|(_&x&S)]; eauto.
Qed.

Lemma not_waiting (s : st) a k sg : senders_ok s -> act E a (acts s) = Some (k, sg) -> expects sg = None -> senders a s = [].
Proof. intros S A W. specialize (S a). rewrite A in S. destruct S as [S|(x&Q&_)]; [exact S|congruence]. Qed.

Lemma sender_stage (s : st) a x k sg : senders_ok s -> In x (senders a s) -> act E a (acts s) = Some (k, sg) ->
  expects sg = Some x.
Proof.
  intros S I A. specialize (S a). rewrite A in S. destruct S as [S|(y&Q&S)]; rewrite S in I; [destruct I|].
  destruct I as [->|[]]. exact Q.
Qed.

Lemma senders_gone (s s1 : st) a : ids_ok s -> senders_ok s ->
  acts s1 = del_act E a (acts s) -> s_next E s1 = s_next E s -> (forall b, senders b s1 = senders b s) ->
  act E a (acts s) <> None -> senders_ok s1.
Proof.
  intros I S A N Q P b. rewrite A, N, Q, act_del_any by apply I.
  destruct (Nat.eqb a b) eqn:B; [|apply S].
  apply Nat.eqb_eq in B. subst b. destruct (act E a (acts s)) as [x|] eqn:X; [|congruence].
  destruct (at_most s a S) as [Z|Z]; auto. right. split; [eapply act_lt; eauto|exact Z].
Qed.

Lemma senders_ask (s s0 : st) a c x k k' sg sg' : ids_ok s -> senders_ok s ->
  act E a (acts s) = Some (k, sg) -> expects sg = None -> expects sg' = Some x ->
  s_q E s0 = s_q E s -> s_pend E s0 = s_pend E s -> s_qauth E s0 = s_qauth E s ->
  s_qshut E s0 = s_qshut E s -> s_shut E s0 = s_shut E s -> s_over E s0 = s_over E s ->
  acts s0 = put_act E a (k', sg') (acts s) -> s_next E s0 = s_next E s ->
  (forall b, q_snd b c = one b a x) -> senders_ok (push_q E c s0).
Proof.
  intros I S A W W' H1 H2 H3 H4 H5 H6 H7 H8 C b.
  change (acts (push_q E c s0)) with (acts s0). change (s_next E (push_q E c s0)) with (s_next E s0).
  rewrite H7, H8, act_put_any.
  destruct (senders_push s b c s0 H1 H2 H3 H4 H5 H6) as [P1 P2].
  destruct (Nat.eqb a b) eqn:B.
  - apply Nat.eqb_eq in B. subst b. rewrite A. right. exists x. split; [exact W'|].
    rewrite (P1 (not_waiting s a k sg S A W)), C. apply one_same.
  - apply Nat.eqb_neq in B. rewrite P2 by (rewrite C; apply one_other; auto). apply S.
Qed.

Definition sender_dec (x y : sender) : {x = y} + {x <> y}.
Proof. decide equality. apply N.eq_dec. Qed.
Notation cnt := (count_occ sender_dec).

Lemma cnt_shrink l l' : (forall x, (cnt l' x <= cnt l x)%nat) -> l = [] \/ (exists x, l = [x]) -> l' = [] \/ l' = l.
Proof.
  intros C [->|[x ->]].
  - left. apply (count_occ_inv_nil sender_dec). intros x. specialize (C x). cbn in C. lia.
  - assert (A : forall y, In y l' -> y = x).
    { intros y I. apply (count_occ_In sender_dec) in I. specialize (C y). cbn in C. destruct (sender_dec x y); [auto|lia]. }
    destruct l' as [|y [|z l']]; [auto| |].
    + right. rewrite (A y); [reflexivity|left; reflexivity].
    + specialize (C x). cbn in C. rewrite (A y), (A z) in C by (cbn; auto).
      destruct (sender_dec x x); [lia|congruence].
Qed.

Lemma eff_senders_shrink (s s' : st) : senders_ok s -> acts s' = acts s -> s_next E s' = s_next E s ->
  (forall a x, (cnt (senders a s') x <= cnt (senders a s) x)%nat) -> senders_ok s'.
Proof. intros S A N C b. apply (shrink b s); [assumption|assumption| |apply S]. apply cnt_shrink; [apply C|apply at_most; exact S]. Qed.

Lemma pdel_cnt n p a b x : pfind n p = Some a ->
  cnt (flat_map (p_snd b) p) x = (cnt (one b a (SReq n)) x + cnt (flat_map (p_snd b) (pdel n p)) x)%nat.
Proof.
  intros F. destruct (Nat.eq_dec b a) as [->|D].
  - destruct (pdel_same n p a F) as (l1&l2&->&->). rewrite one_same, !count_occ_app. cbn. destruct (sender_dec (SReq n) x); lia.
  - rewrite (pdel_other b n p a F) by auto. rewrite one_other by auto. reflexivity.
Qed.

Lemma senders_answer (s s' : st) a k sg sg' x : senders_ok s -> act E a (acts s) = Some (k, sg) ->
  acts s' = put_act E a (k, sg') (acts s) -> s_next E s' = s_next E s ->
  (forall b y, (cnt (senders b s') y + cnt (one b a x) y <= cnt (senders b s) y)%nat) -> senders_ok s'.
Proof.
  intros S A P N C b. rewrite P, N, act_put_any.
  assert (Q : senders b s' = [] \/ senders b s' = senders b s).
  { apply cnt_shrink; [intros y; specialize (C b y); lia|apply at_most; exact S]. }
  destruct (Nat.eqb a b) eqn:B.
  - apply Nat.eqb_eq in B. subst b. rewrite A. left. specialize (C a x). rewrite one_same in C. cbn in C. destruct (sender_dec x x); [|congruence].
    destruct Q as [Z|Z]; [exact Z|rewrite Z in C; lia].
  - specialize (S b). destruct Q as [Z|Z]; rewrite Z; [destruct (act E b (acts s)) as [[? ?]|]; auto|exact S].
Qed.

Ltac counts := intros; unfold senders, g_snd; cbn;
  repeat match goal with H : s_q E ?x = _ |- _ => rewrite H; clear H | H : s_qauth E ?x = _ |- _ => rewrite H; clear H
    | H : s_qshut E ?x = _ |- _ => rewrite H; clear H | H : s_shut E ?x = _ |- _ => rewrite H; clear H
    | H : s_over E ?x = _ |- _ => rewrite H; clear H end;
  cbn; rewrite ?flat_map_app, ?count_occ_app; cbn; rewrite ?app_nil_r, ?count_occ_app; cbn;
  repeat match goal with |- context [cnt (h_snd ?u ?v)] => change (h_snd u v) with (one u v SStop)
    | |- context [cnt (p_snd ?u (?v, ?w))] => change (p_snd u (v, w)) with (one u w (SReq v)) end; try lia.

Lemma eff_senders s t s' : eff E s t s' -> ids_ok s -> tasks_ok s -> senders_ok s -> senders_ok s'.
Proof.
  intros F I K S. destruct F.
  all: try exact S.
  all: try (eapply (senders_gone s); try reflexivity; try assumption; congruence).
  all: try (eapply (senders_ask s); try reflexivity; eassumption || reflexivity).
  all: try (apply (eff_senders_shrink s); [exact S|reflexivity|reflexivity|counts; fail]).
  - (* call *)
    intros b. change (senders b (add_act E k s)) with (senders b s). cbn. destruct (Nat.eqb b (s_next E s)) eqn:B.
    + apply Nat.eqb_eq in B. subst b. left. specialize (S (s_next E s)). rewrite (fresh_act s I) in S.
      destruct S as [S|[L _]]; [exact S|lia].
    + specialize (S b). destruct (act E b (acts s)) as [[? ?]|]; [exact S|]. destruct S as [S|[L X]]; [auto|right; split; [lia|exact X]].
  - eapply (senders_ask s); try reflexivity; try eassumption; [destruct H1; reflexivity|reflexivity].
  - eapply (senders_gone s); try reflexivity; try assumption; [|congruence].
    intros b. unfold senders, g_snd; cbn. rewrite flat_map_app. cbn. rewrite app_nil_r. reflexivity.
  - apply (senders_answer s _ a k (WResp E n') (GResp E n m) (SReq n)); try assumption; try reflexivity.
    counts. rewrite (pdel_cnt n _ a b y H1). lia.
  - apply (senders_answer s _ a k (WResp E n') (GResp E n m) (SReq n)); try assumption; try reflexivity.
    counts. rewrite (pdel_cnt n _ a b y H1). lia.
  - (* number *)
    eapply (senders_answer s _ a k (WSeq E) _ SSeq); try assumption; try reflexivity. counts.
  - (* spawn *)
    intros b0. match goal with |- context [senders b0 ?x] => change (senders b0 x) with (senders b0 s) end.
    cbn. destruct (Nat.eqb b0 (s_next E s)) eqn:B.
    + apply Nat.eqb_eq in B. subst b0. left. specialize (S (s_next E s)). rewrite (fresh_act s I) in S.
      destruct S as [S|[L _]]; [exact S|lia].
    + specialize (S b0). destruct (act E b0 (acts s)) as [[? ?]|]; [exact S|]. destruct S as [S|[L X]]; [auto|right; split; [lia|exact X]].
  - eapply (senders_answer s _ a k (WUuid E n) _ SUuid); try assumption; try reflexivity. counts.
  - (* shut *)
    assert (O : s_over E s = false) by (destruct (s_over E s) eqn:O; [destruct (k_over s K O) as (?&?&?&?); congruence|reflexivity]).
    apply (eff_senders_shrink s); [exact S|reflexivity|reflexivity|].
    counts.
  - apply (eff_senders_shrink s); [exact S|reflexivity|reflexivity|counts].
    destruct (s_shut E s); cbn; lia.
  - eapply (senders_answer s _ a k (WStop E) _ SStop); try assumption; try reflexivity. counts.
Qed.

End Inv.
