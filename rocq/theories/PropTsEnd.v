(** A generated TypeScript producer and one of its TypeScript consumers left to
    themselves come to rest (C105).  The setting is that of PropTsSystem.v. *)
From Coq Require Import List NArith Arith Bool Lia.
From Coq Require Import Strings.Byte.
From Verif Require Import Bytes WireModel FrameModel FrameProofs TsModel TsReader.
From Verif Require TsClientModel TsClientProofs TsClientTrace PropTsClient.
From Verif Require Import TsServerModel TsServerProofs TsServerTrace PropTsServer TsSystemModel TsSystemProofs TsSystemRest PropTsSystem.
From Verif Require Import ClientRest TsServerRest.
Import ListNotations.
Open Scope N_scope.

Section Statements.
Variable QE : qenv.
Variable CE : TsClientModel.tenv.
Variable K : codec QE.
Variable u : N.
Variable o : nat.
(** which steps the application of the client makes; what the client does by itself is allowed *)
Variable A : list (TsClientModel.tev (TsClientModel.t_msg CE)) -> TsClientModel.label -> Prop.
Hypothesis AA : forall t l, automatic l -> A t l.
Local Notation tsys := (tsys QE CE).
Local Notation z_q := (z_q QE CE). Local Notation z_ql := (z_ql QE CE). Local Notation z_qt := (z_qt QE CE).
Local Notation z_c := (z_c QE CE). Local Notation z_cl := (z_cl QE CE). Local Notation z_ct := (z_ct QE CE).
Local Notation z_ups := (z_ups QE CE). Local Notation z_downs := (z_downs QE CE).
Local Notation z_lost := (z_lost QE CE). Local Notation z_app := (z_app QE CE).
Local Notation mkTsys := (mkTsys QE CE).

(** The steps that need nobody outside: bytes arrive (the transport delivers no empty
    chunk), the producer goes on with what it has read - the functions of its
    application end, promises of [send] are settled -, and so does the client. *)
Inductive inner : tsys -> tsys -> Prop :=
| J_server z l s' es lost qs :
    own QE l -> fire QE (z_q z) l = Some (s', es) -> passed QE K (handed QE u es) lost qs ->
    inner z (mkTsys s' (z_ql z ++ [l]) (z_qt z ++ es) (z_c z) (z_cl z) (z_ct z) (z_ups z) (z_downs z ++ stream qs) (z_lost z ++ lost) (z_app z))
| J_receive z n fuel s' es lost qs :
    let l := LData u (firstn n (z_ups z)) fuel in
    (0 < n <= length (z_ups z))%nat -> fire QE (z_q z) l = Some (s', es) -> passed QE K (handed QE u es) lost qs ->
    inner z (mkTsys s' (z_ql z ++ [l]) (z_qt z ++ es) (z_c z) (z_cl z) (z_ct z) (skipn n (z_ups z)) (z_downs z ++ stream qs) (z_lost z ++ lost) (z_app z))
| J_client z l s' es qs :
    automatic l -> TsClientModel.fire CE (z_c z) l = Some (s', es) -> up_packets QE CE K es qs ->
    inner z (mkTsys (z_q z) (z_ql z) (z_qt z) s' (z_cl z ++ [l]) (z_ct z ++ es) (z_ups z ++ stream qs) (z_downs z) (z_lost z) (z_app z))
| J_deliver z n fuel s' es qs :
    let l := TsClientModel.LData (firstn n (z_downs z)) fuel in
    (0 < n <= length (z_downs z))%nat -> TsClientModel.fire CE (z_c z) l = Some (s', es) -> up_packets QE CE K es qs ->
    inner z (mkTsys (z_q z) (z_ql z) (z_qt z) s' (z_cl z ++ [l]) (z_ct z ++ es) (z_ups z ++ stream qs) (skipn n (z_downs z)) (z_lost z) (z_app z)).

Inductive inners (z : tsys) : tsys -> Prop :=
| inners_none : inners z z
| inners_more z1 z2 : inners z z1 -> inner z1 z2 -> inners z z2.

Lemma inner_move z z' : inner z z' -> move QE CE K A u z z'.
Proof.
  destruct 1 as [z l s' es lost qs OW F P|z n fuel s' es lost qs l N F P|z l s' es qs AU F Q|z n fuel s' es qs l N F Q].
  - eapply Z_server; eauto. destruct l; try elim OW; exact I.
  - eapply Z_receive; eauto.
  - eapply Z_client; eauto. destruct l; try elim AU; exact I.
  - eapply Z_deliver; eauto. lia.
Qed.
Lemma inners_trans a b c : inners a b -> inners b c -> inners a c.
Proof. intros H. induction 1 as [|z1 z2 _ IH N]; [exact H|]. econstructor; [exact IH|exact N]. Qed.

(** ** It cannot go on for ever *)
Definition below := lex lt (lex lt (lex qbelow (lex lt (lex lt lt)))).
Definition measure (z : tsys) : nat * (nat * (nat * (nat * nat) * (nat * (nat * nat)))) :=
  (total CE (open_of CE) (z_c z) (ids CE (z_ct z)), (length (z_ups z), (qrank QE (z_q z), (length (z_downs z), rank CE (z_c z) (z_ct z))))).

Lemma lower z0 z z' : fresh QE CE u o z0 -> reach QE CE K A u z0 z -> inner z z' -> below (measure z') (measure z).
Proof.
  intros FR R N. destruct (inv_reach QE CE K A u o z0 z FR R) as (ups & downs & IV).
  pose proof (TsClientProofs.trun_inv CE _ _ _ (v_c _ _ _ _ _ _ _ _ IV)) as IC. pose proof (qrun_inv QE _ _ _ (v_q _ _ _ _ _ _ _ _ IV)) as IQ.
  destruct N as [z l s' es lost qs OW F P|z n fuel s' es lost qs l N F P|z l s' es qs AU F Q|z n fuel s' es qs l N F Q];
    unfold below, measure; cbn [TsSystemModel.z_q TsSystemModel.z_ql TsSystemModel.z_qt TsSystemModel.z_c TsSystemModel.z_cl TsSystemModel.z_ct TsSystemModel.z_ups TsSystemModel.z_downs].
  - right. split; [reflexivity|]. right. split; [reflexivity|]. left. exact (server_nearer QE _ _ _ _ _ IQ OW F).
  - right. split; [reflexivity|]. left. cbn [fst snd]. rewrite skipn_length. lia.
  - destruct (nearer CE _ _ _ _ _ IC AU F) as [H|(H & SU & HR)]; [left; exact H|].
    assert (qs = []) as -> by (unfold up_packets in Q; rewrite SU in Q; inversion Q; reflexivity).
    cbn [stream flat_map]. rewrite app_nil_r. apply le_lex; [exact H|]. right. split; [reflexivity|]. right. split; [reflexivity|].
    right. split; [reflexivity|]. exact HR.
  - assert (H : TsClientModel.c_act s' = TsClientModel.c_act (z_c z) /\ ids CE es = [] /\ sent_up CE es = []).
    { subst l. cbn [TsClientModel.fire] in F. destruct (TsClientModel.c_drain (z_c z)); [discriminate F|].
      destruct (ts_chunk _ _ _ _ _) as [[oo b]|]; [|discriminate F]. injection F as <- <-. split; [|split]; reflexivity. }
    destruct H as (H1 & H2 & H3).
    assert (qs = []) as -> by (unfold up_packets in Q; rewrite H3 in Q; inversion Q; reflexivity).
    cbn [stream flat_map]. rewrite app_nil_r, ids_app, H2, app_nil_r. right. split.
    { cbn [fst]. unfold total. rewrite H1. reflexivity. }
    right. split; [reflexivity|]. right. split; [reflexivity|]. left. cbn [fst snd]. rewrite skipn_length. lia.
Qed.

Lemma inner_acc z0 z : fresh QE CE u o z0 -> reach QE CE K A u z0 z -> Acc (fun b a => inner a b) z.
Proof.
  intros FR R. assert (W : Acc below (measure z)).
  { apply lex_wf; [exact lt_wf|]. apply lex_wf; [exact lt_wf|]. apply lex_wf; [exact qbelow_wf|]. repeat (apply lex_wf; [exact lt_wf|]). exact lt_wf. }
  remember (measure z) as k eqn:EK. revert z R EK. induction W as [k _ IH]. intros z R ->.
  constructor. intros z' N. apply (IH (measure z')); [exact (lower z0 z z' FR R N)| |reflexivity].
  econstructor; [exact R|exact (inner_move _ _ N)].
Qed.

(** ** What is left when no step is possible *)
Hypothesis OK : compatible QE CE K.
(** All bytes that were sent so far in each direction, delivered or not, are less than
    2^64. *)
Definition few_sent (z : tsys) : Prop :=
  blen (concat (chunks QE o (z_qt z)) ++ z_ups z) < 2 ^ 64 /\ blen (concat (TsClientTrace.chunks CE (z_ct z)) ++ z_downs z) < 2 ^ 64.
(** Nothing is under way, and neither side has anything to do, the producer for no
    client at all. *)
Definition quiet_end (z : tsys) : Prop :=
  z_ups z = [] /\ z_downs z = [] /\ idle QE (z_q z) /\ PropTsClient.at_rest CE (z_c z).

Lemma all_passed ms : exists qs, passed QE K ms [] qs.
Proof. induction ms as [|[n p] ms (qs & IH)]; [exists []; constructor|]. eexists. exact (passed_on QE K n p 0 ms [] _ IH). Qed.

Lemma progress z0 z : fresh QE CE u o z0 -> reach QE CE K A u z0 z -> few_sent z -> quiet_end z \/ exists z', inner z z'.
Proof.
  intros FR R (L1 & L2). destruct (inv_reach QE CE K A u o z0 z FR R) as (ups & downs & IV).
  pose proof (TsClientProofs.trun_inv CE _ _ _ (v_c _ _ _ _ _ _ _ _ IV)) as IC. pose proof (qrun_inv QE _ _ _ (v_q _ _ _ _ _ _ _ _ IV)) as IQ.
  destruct (server_steps QE _ _ IQ) as [ID|(l & s' & es & OW & F)].
  2:{ right. destruct (all_passed (handed QE u es)) as (qs & P). eexists. eapply J_server; eauto. }
  destruct (steps CE _ _ IC) as [AT|(l & s' & es & AU & F & SU)].
  2:{ right. eexists. eapply J_client with (qs := []); eauto. unfold up_packets. rewrite SU. constructor. }
  destruct (z_ups z) as [|b bs] eqn:UP.
  - destruct (z_downs z) as [|b bs] eqn:DN; [left; split; [exact UP|split; [exact DN|split; [exact ID|exact AT]]]|].
    right. destruct (downs_ok QE CE K OK _ _ _ (v_downs _ _ _ _ _ _ _ _ IV)) as (PK & QU & _).
    destruct (readable CE _ _ _ downs (z_downs z) (v_c _ _ _ _ _ _ _ _ IV) (proj1 AT) PK QU (v_down _ _ _ _ _ _ _ _ IV)) as (fuel & s' & es & F & SU).
    { rewrite <- (v_down _ _ _ _ _ _ _ _ IV), DN. exact L2. }
    eexists. eapply J_deliver with (n := length (z_downs z)) (qs := []).
    + rewrite DN. cbn [length]. lia.
    + rewrite firstn_all. exact F.
    + unfold up_packets. rewrite SU. constructor.
  - right. destruct (ups_ok QE CE K OK _ _ _ (v_ups _ _ _ _ _ _ _ _ IV)) as (PK & QU & _).
    destruct (server_takes QE _ _ u o ups (z_ups z) IQ (qrun_fed QE _ _ _ (v_q _ _ _ _ _ _ _ _ IV) o) (proj1 ID) (v_map _ _ _ _ _ _ _ _ IV)) as (fuel & s' & es & F).
    { intros c O KD. pose proof (qrun_flags QE _ _ _ (v_q _ _ _ _ _ _ _ _ IV) o) as FL. rewrite O in FL.
      assert (ND : ~ In (ODiscredit o) (z_qt z)) by (intro W; apply (f_disc _ _ _ _ FL) in W; congruence).
      destruct (v_up _ _ _ _ _ _ _ _ IV) as (rest & E & H). rewrite (H ND) in E. split; [exact PK|]. split; [exact QU|]. split; [exact E|].
      rewrite <- E, UP. exact L1. }
    destruct (all_passed (handed QE u es)) as (qs & P). eexists. eapply J_receive with (n := length (z_ups z)).
    + rewrite UP. cbn [length]. lia.
    + rewrite firstn_all. exact F.
    + exact P.
Qed.

(** C105.  From no state can the two go on for ever without the world outside. *)
Theorem C105_no_endless : forall z0 z, fresh QE CE u o z0 -> reach QE CE K A u z0 z ->
  ~ exists f : nat -> tsys, f 0%nat = z /\ forall i, inner (f i) (f (S i)).
Proof. intros z0 z FR R (f & F0 & H). exact (no_chain (fun b a => inner a b) z (inner_acc z0 z FR R) f F0 H). Qed.

(** A state from which they cannot go on is one of rest. *)
Theorem C105_ends_at_rest : forall z0 z, fresh QE CE u o z0 -> reach QE CE K A u z0 z -> few_sent z ->
  (forall z', ~ inner z z') -> quiet_end z.
Proof. intros z0 z FR R L NO. destruct (progress z0 z FR R L) as [Q|(z' & N)]; [exact Q|]. elim (NO _ N). Qed.

(** So from every state rest can be reached. *)
Theorem C105_comes_to_rest : forall z0 z, fresh QE CE u o z0 -> reach QE CE K A u z0 z ->
  exists z', inners z z' /\ (quiet_end z' \/ ~ few_sent z').
Proof.
  intros z0 z FR R. pose proof (inner_acc z0 z FR R) as AC. induction AC as [z _ IH].
  assert (D : few_sent z \/ ~ few_sent z) by (unfold few_sent; lia).
  destruct D as [L|L]; [|exists z; split; [constructor|right; exact L]].
  destruct (progress z0 z FR R L) as [Q|(z1 & N)]; [exists z; split; [constructor|left; exact Q]|].
  assert (N1 : inners z z1) by (econstructor; [constructor|exact N]).
  destruct (IH z1 N) as (z' & H & Q).
  - econstructor; [exact R|exact (inner_move _ _ N)].
  - exists z'. split; [exact (inners_trans _ _ _ N1 H)|exact Q].
Qed.
End Statements.

Section Calls.
Variable QE : qenv.
Variable CE : TsClientModel.tenv.
Variable K : codec QE.
Local Notation z_q := (z_q QE CE). Local Notation z_qt := (z_qt QE CE). Local Notation z_c := (z_c QE CE). Local Notation z_ct := (z_ct QE CE).
Local Notation z_ups := (z_ups QE CE). Local Notation z_downs := (z_downs QE CE).
Local Notation z_lost := (z_lost QE CE). Local Notation z_app := (z_app QE CE).

(** Conversely nothing happens at rest until somebody outside acts. *)
Theorem C105_rest_is_end : forall u z, quiet_end QE CE z -> forall z', ~ inner QE CE K u z z'.
Proof.
  intros u z (UP & DN & (LP & TD) & AD & AT) z' N.
  destruct N as [z l s' es lost qs OW F P|z n fuel s' es lost qs l N F P|z l s' es qs AU F Q|z n fuel s' es qs l N F Q].
  - destruct l as [v|v|v d f| |v|v|v|t r|t ok k|t ok|e r k]; try (elim OW; fail); cbn [fire] in F; rewrite LP in F; try discriminate F;
      (destruct (p_task (z_q z) t) as [j|] eqn:T; [|discriminate F]); rewrite (TD _ _ T) in F; discriminate F.
  - rewrite UP in N. cbn [length] in N. lia.
  - destruct l as [| | | | | | | |a|a b r]; try (elim AU; fail); cbn [TsClientModel.fire] in F; rewrite AD in F.
    + discriminate F.
    + specialize (AT a). destruct (TsClientModel.c_act (z_c z) a) as [[w [k|k m|v|]]|]; solve [discriminate F|elim AT].
    + specialize (AT a). destruct (TsClientModel.c_act (z_c z) a) as [[w [k|k m|v|]]|]; solve [discriminate F|elim AT|destruct w; discriminate F].
  - rewrite DN in N. cbn [length] in N. lia.
Qed.

Lemma patient_automatic t l : automatic l -> patient CE t l.
Proof. destruct l; intros H; try exact I; elim H. Qed.

(** What this says about calls: when the two cannot go on, every call of a patient
    application that was sent has ended, under the conditions of C96. *)
Theorem C105_calls_end_partial : forall u o z0 z a n,
  compatible QE CE K -> fresh QE CE u o z0 -> reach QE CE K (patient CE) u z0 z -> few_sent QE CE o z -> content QE CE o z ->
  z_lost z = [] -> (forall z', ~ inner QE CE K u z z') -> (forall k x, In (k, x) (z_app z) -> k mod 2 ^ 32 <> n) ->
  In (TsClientModel.VNum a n TsClientModel.SOk) (z_ct z) -> exists r, In (TsClientModel.VRet a r) (z_ct z).
Proof.
  intros u o z0 z a n OK FR R L CT ZL NO NA IN.
  destruct (C105_ends_at_rest QE CE K u o (patient CE) patient_automatic OK z0 z FR R L NO) as (UP & DN & (LP & TD) & AT).
  apply (C96_calls_end_partial QE CE K u o z0 z a n OK FR R); auto.
  - destruct L as (L1 & L2). rewrite blen_app in L1, L2. split; lia.
  - split; [exact UP|]. split; [exact DN|]. split; [rewrite LP; discriminate|]. split; [|exact AT]. intros t j T _. exact (TD t j T).
Qed.
End Calls.
Print Assumptions C105_no_endless.
Print Assumptions C105_ends_at_rest.
Print Assumptions C105_comes_to_rest.
Print Assumptions C105_rest_is_end.
Print Assumptions C105_calls_end_partial.

(** ** Concrete cases *)
(** A client that was just connected has something to do; after the handshake and a
    request that was answered there is nothing to do. *)
Example C105_example : compatible SE KE demo_codec /\
  (exists z0 z z', fresh SE KE 5 0 z0 /\ reach SE KE demo_codec (patient KE) 5 z0 z /\ few_sent SE KE 0 z /\ inner SE KE demo_codec 5 z z') /\
  exists z0 z, fresh SE KE 5 0 z0 /\ reach SE KE demo_codec (patient KE) 5 z0 z /\ few_sent SE KE 0 z /\ content SE KE 0 z /\
    z_lost _ _ z = [] /\ (forall z', ~ inner SE KE demo_codec 5 z z') /\ z_app _ _ z = [] /\
    In (TsClientModel.VNum 2 3 TsClientModel.SOk) (z_ct _ _ z).
Proof.
  split; [exact demo_compatible|]. split.
  - destruct (demo_play true [ByClient (TsClientModel.LConnected 0 TsClientModel.SOk)] (fun z => few_sent SE KE 0 z /\ z_ups _ _ z <> [])) as (z0 & z & FR & R & L & NE).
    { vm_compute. split; [split; reflexivity|discriminate]. }
    destruct (progress SE KE demo_codec 5 0 (patient KE) (patient_automatic KE) demo_compatible z0 z FR R L) as [(UP & _)|(z' & N)]; [elim (NE UP)|].
    exists z0, z, z'. auto.
  - destruct (demo_play true asks (fun z => few_sent SE KE 0 z /\ content SE KE 0 z /\ z_lost _ _ z = [] /\ quiet_end SE KE z /\ z_app _ _ z = [] /\
      In (TsClientModel.VNum 2 3 TsClientModel.SOk) (z_ct _ _ z))) as (z0 & z & FR & R & L & CT & ZL & QE & ZA & IN).
    { vm_compute. split; [split; reflexivity|]. split; [quiet|]. split; [reflexivity|].
      split; [split; [reflexivity|split; [reflexivity|split; [split; [reflexivity|intros [|t] j H; [injection H as <-; reflexivity|discriminate H]]|split; [reflexivity|intros [|[|[|a]]]; exact I]]]]|].
      split; [reflexivity|member]. }
    exists z0, z. do 5 (split; [assumption|]). split; [apply C105_rest_is_end; exact QE|]. split; assumption.
Qed.
