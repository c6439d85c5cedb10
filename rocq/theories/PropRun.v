(** How a Rust server ends and what it reports (C107), and that it can be stopped
    (C108). *)
From Coq Require Import List NArith Bool Arith Lia Wf_nat.
From Coq Require Import Strings.Byte.
From Verif Require Import Bytes ProducerModel PropProducer RunModel.
Import ListNotations.

(** * What a trace says *)
Section Words.
Variable E : env.
Notation rout := (rout E).
(** what each of the three pieces of code returned, how often the shutdown handler was
    called and what it returned, what [run] returned, the events the listener took and
    what it did *)
Definition srvs (t : list rout) : list (option perr) := flat_map (fun o => match o with XSrv _ r => [r] | _ => [] end) t.
Definition lsts (t : list rout) : list (option perr) := flat_map (fun o => match o with XLst _ r => [r] | _ => [] end) t.
Definition stops (t : list rout) : list bool := flat_map (fun o => match o with XStop _ ok => [ok] | _ => [] end) t.
Definition told (t : list rout) : list unit := flat_map (fun o => match o with XShutdown _ => [tt] | _ => [] end) t.
Definition heard (t : list rout) : list bool := flat_map (fun o => match o with XShutdownRet _ ok => [ok] | _ => [] end) t.
Definition ends (t : list rout) : list rres := flat_map (fun o => match o with XEnd _ r => [r] | _ => [] end) t.
Definition turns (t : list rout) : list event := flat_map (fun o => match o with XTurn _ e => [e] | _ => [] end) t.
Definition outs (t : list rout) : list (out E) := flat_map (fun o => match o with XOut _ x => [x] | _ => [] end) t.
(** an act of the application, not of [run] *)
Definition by_app (o : rout) : Prop := match o with XCall _ _ _ | XRet _ _ _ => True | _ => False end.
End Words.

Section Proofs.
Variable E : env.
Notation rout := (rout E).
Notation rst := (rst E).
Notation label := (label).
Variable w0 : e_world E.

Lemma flat_out {B} (f : rout -> list B) t : (forall o, f (XOut E o) = []) -> flat_map f (map (XOut E) t) = [].
Proof. intros H. induction t as [|o t IH]; cbn [map flat_map]; [reflexivity|]. rewrite H, IH. reflexivity. Qed.
Lemma srvs_o t : srvs E (map (XOut E) t) = []. Proof. apply flat_out. reflexivity. Qed.
Lemma lsts_o t : lsts E (map (XOut E) t) = []. Proof. apply flat_out. reflexivity. Qed.
Lemma stops_o t : stops E (map (XOut E) t) = []. Proof. apply flat_out. reflexivity. Qed.
Lemma told_o t : told E (map (XOut E) t) = []. Proof. apply flat_out. reflexivity. Qed.
Lemma heard_o t : heard E (map (XOut E) t) = []. Proof. apply flat_out. reflexivity. Qed.
Lemma ends_o t : ends E (map (XOut E) t) = []. Proof. apply flat_out. reflexivity. Qed.
Lemma turns_o t : turns E (map (XOut E) t) = []. Proof. apply flat_out. reflexivity. Qed.
Lemma outs_o t : outs E (map (XOut E) t) = t.
Proof. unfold outs. induction t as [|o t IH]; cbn [map flat_map app]; [reflexivity|]. f_equal. exact IH. Qed.

(** * The three pieces of code and the end of [run] *)
Definition lst_ok (t : list rout) (s : rst) : Prop :=
  match r_phase E s with
  | FOver RunPanic => lsts E t = [] /\ exists p, listen E (turns E t) (ProducerModel.start E w0) = (outs E t, (p, PPanic))
  | _ =>
    match r_lst E s with
    | LIdle _ p | LBusy _ _ _ p => lsts E t = [] /\ listen E (turns E t) (ProducerModel.start E w0) = (outs E t, (p, PGo true))
    | LEnded _ (Some x) p => lsts E t = [Some x] /\ listen E (turns E t) (ProducerModel.start E w0) = (outs E t, (p, PStop x))
    | LEnded _ None p => lsts E t = [None] /\ exists b, listen E (turns E t) (ProducerModel.start E w0) = (outs E t, (p, PGo b))
    end
  end.
Definition joined (s : rst) : Prop :=
  exists rs rl p q, r_srv E s = Some rs /\ r_lst E s = LEnded E rl p /\ r_sht E s = SDone q.
(** they have ended, and the listener not by a panic *)
Definition answered (s : rst) : Prop := joined s /\ match r_phase E s with FEmit _ | FOver RunOk | FOver (RunErr _) => True | _ => False end.
Definition dropped (a : nat) (s : rst) : Prop := nth_error (r_calls E s) a = Some (true, CDrop).
Definition why (r : rres) (t : list rout) (s : rst) : Prop :=
  (r = RunPanic /\ told E t = [] /\ heard E t = []) \/
  (r = RunErr EServer /\ srvs E t = [] /\ lsts E t = [] /\ stops E t = [] /\ turns E t = [] /\ told E t = [] /\ heard E t = []) \/
  exists rs rl p q, r_srv E s = Some rs /\ r_lst E s = LEnded E rl p /\ r_sht E s = SDone q /\
    ((r = RunErr EChannel /\ told E t = [] /\ heard E t = [] /\ exists a, q = Some (Some a) /\ dropped a s) \/
     exists ok, told E t = [tt] /\ heard E t = [ok] /\ r = if ok then cause rs rl else RunErr EEmitter).
Definition end_ok (t : list rout) (s : rst) : Prop :=
  match r_phase E s with
  | FNew => told E t = [] /\ heard E t = [] /\ ends E t = [] /\ r_cancel E s = false /\ r_chan E s = [] /\ r_calls E s = [] /\ srvs E t = [] /\ lsts E t = [] /\ stops E t = [] /\ turns E t = []
  | FJoin => told E t = [] /\ heard E t = [] /\ ends E t = []
  | FEmit _ => told E t = [tt] /\ heard E t = [] /\ ends E t = [] /\ joined s
  | FOver r => ends E t = [r] /\ why r t s
  end.
Record inv (t : list rout) (s : rst) : Prop := mkInv {
  i_srv : srvs E t = match r_srv E s with Some r => [r] | None => [] end;
  i_lst : lst_ok t s;
  i_sht : match r_sht E s with SDone _ => r_cancel E s = true /\ exists ok, stops E t = [ok] | _ => stops E t = [] end;
  i_end : end_ok t s;
  (* calls *)
  i_calls : forall a w, In (XCall E a w) t <-> exists c, nth_error (r_calls E s) a = Some (w, c);
  i_chan : forall a, In (Some a) (r_chan E s) -> exists c, nth_error (r_calls E s) a = Some (true, c) /\ c <> CNew /\ (r_phase E s = FJoin -> c = CWait \/ c = CDrop);
  i_held : forall a, r_sht E s = SCall (Some (Some a)) \/ r_sht E s = SDone (Some (Some a)) ->
             exists c, nth_error (r_calls E s) a = Some (true, c) /\ c <> CNew /\ (r_phase E s = FJoin -> c = CWait \/ c = CDrop);
  i_ans : forall a w, nth_error (r_calls E s) a = Some (w, CAns) -> w = true /\ answered s;
  i_ret : forall a ok, In (XRet E a ok) t -> exists w, nth_error (r_calls E s) a = Some (w, CRet) /\ (ok = true -> w = true -> answered s);
  i_rets : forall a w, nth_error (r_calls E s) a = Some (w, CRet) -> exists ok, In (XRet E a ok) t
}.

Lemma start_inv : inv [] (start E w0).
Proof.
  split; try reflexivity.
  - split; reflexivity.
  - cbn. repeat split; reflexivity.
  - intros a w. split; [intros []|]. intros (c & H). destruct a; discriminate H.
  - intros a [].
  - intros a [H|H]; discriminate H.
  - intros a w H. destruct a; discriminate H.
  - intros a ok [].
  - intros a w H. destruct a; discriminate H.
Qed.

Lemma nth_set a c : forall l b, nth_error (set_nth a c l) b = if Nat.eqb a b then (match nth_error l a with Some _ => Some c | None => None end) else nth_error l b.
Proof.
  revert c. induction a as [|a IH]; intros c [|d l] [|b]; cbn [set_nth nth_error Nat.eqb]; try reflexivity.
  - destruct (Nat.eqb a b); reflexivity.
  - apply IH.
Qed.
Definition restage (a : nat) (c : cstage) (l : list call) : list call :=
  match nth_error l a with Some (w, _) => set_nth a (w, c) l | None => l end.
Lemma stage_is a c s : stage E a c s = set_calls E (r_chan E s) (restage a c (r_calls E s)) s.
Proof. unfold stage, restage. destruct (nth_error (r_calls E s) a) as [[w d]|]; [reflexivity|]. destruct s. reflexivity. Qed.
Lemma nth_restage a c l b : nth_error (restage a c l) b =
  if Nat.eqb a b then (match nth_error l a with Some (w, _) => Some (w, c) | None => None end) else nth_error l b.
Proof.
  unfold restage. destruct (nth_error l a) as [[w d]|] eqn:N; [rewrite nth_set, N; reflexivity|].
  destruct (Nat.eqb_spec a b) as [<-|]; [exact N|reflexivity].
Qed.

Local Ltac split_fire F :=
  repeat match type of F with
  | match ?x with _ => _ end = _ => destruct x eqn:?; try discriminate F
  | (let _ := _ in _) = _ => cbv zeta in F
  end; try discriminate F; injection F as <- <-; subst.
Local Ltac fields := rewrite ?stage_is in *; unfold set_phase, set_srv, set_lst, set_sht, set_calls in *; cbn [r_phase r_srv r_lst r_sht r_cancel r_chan r_calls] in *.
Local Ltac by_cases F := cbn [fire r_phase r_srv r_lst r_sht r_cancel r_chan r_calls] in F; split_fire F; fields.
Local Ltac words := unfold srvs, lsts, stops, told, heard, ends, turns, outs in *; rewrite ?flat_map_app in *; cbn [flat_map app] in *;
  rewrite ?flat_map_app in *; cbn [flat_map app] in *;
  repeat match goal with |- context [flat_map ?f (map (XOut E) ?o)] => rewrite (flat_out f o (fun _ => eq_refl)) end; rewrite ?app_nil_r in *; cbn [app] in *.

Lemma srv_step t s l s' o : inv t s -> fire E l s = Some (s', o) -> srvs E (t ++ o) = match r_srv E s' with Some r => [r] | None => [] end.
Proof.
  intros I F. pose proof (i_srv _ _ I) as S. clear I. destruct s as [ph sv ls sh cn ch cs].
  destruct l; by_cases F; words; first [exact S|rewrite S; reflexivity].
Qed.
Lemma sht_step t s l s' o : inv t s -> fire E l s = Some (s', o) ->
  match r_sht E s' with SDone _ => r_cancel E s' = true /\ exists ok, stops E (t ++ o) = [ok] | _ => stops E (t ++ o) = [] end.
Proof.
  intros I F. pose proof (i_sht _ _ I) as S. clear I. destruct s as [ph sv ls sh cn ch cs].
  destruct l; by_cases F; words; try exact S;
    try (destruct sh; first [exact S|destruct S as (S1 & S2); split; [try rewrite S1; reflexivity|exact S2]]).
  rewrite S. split; [apply orb_true_r|eexists; reflexivity].
Qed.

Lemma listen_snoc es e s o p o2 p' r : listen E es s = (o, (p, PGo true)) -> step E e p = (o2, (p', r)) ->
  listen E (es ++ [e]) s = (o ++ o2, (p', r)).
Proof.
  intros H S. rewrite listen_app. unfold bindp. rewrite H, listen_cons. unfold bindp. rewrite S.
  destruct r as [[|]|x|]; cbn; rewrite ?app_nil_r; reflexivity.
Qed.
Lemma turn_words t e (l : list (out E)) x : let o := t ++ XTurn E e :: map (XOut E) l ++ x in
  lsts E o = lsts E t ++ lsts E x /\ turns E o = turns E t ++ [e] ++ turns E x /\ outs E o = outs E t ++ l ++ outs E x /\
  told E o = told E t ++ told E x /\ heard E o = heard E t ++ heard E x /\ ends E o = ends E t ++ ends E x.
Proof.
  cbv zeta. pose proof (outs_o l) as OO. unfold outs in OO. words. rewrite OO. repeat split; reflexivity.
Qed.
Lemma lst_step t s l s' o : inv t s -> fire E l s = Some (s', o) -> lst_ok (t ++ o) s'.
Proof.
  intros I F. pose proof (i_lst _ _ I) as L. clear I. destruct s as [ph sv ls sh cn ch cs]. unfold lst_ok in *.
  destruct l; by_cases F.
  all: try (destruct ls as [|? ? ?|[] ?]; words; solve [exact L|exact (fun H => H)]).
  all: try (words; exact L).
  all: try (destruct r as [|x|]; [destruct ls as [|? ? ?|[] ?]|destruct ls as [|? ? ?|[] ?]|]; words; exact L).
  - destruct L as (L1 & L2). words. rewrite L1. split; [reflexivity|]. exists true. exact L2.
  - destruct L as (L1 & L2). destruct (turn_words t e l []) as (W1 & W2 & W3 & _). rewrite app_nil_r in *. rewrite W1, W2, W3, L1. split; [reflexivity|].
    cbn. rewrite !app_nil_r. eapply listen_snoc; eassumption.
  - destruct L as (L1 & L2). destruct (turn_words t e l [XLst E None]) as (W1 & W2 & W3 & _). rewrite W1, W2, W3, L1. split; [reflexivity|].
    exists false. cbn. rewrite !app_nil_r. eapply listen_snoc; eassumption.
  - destruct L as (L1 & L2). destruct (turn_words t e l [XLst E (Some e0)]) as (W1 & W2 & W3 & _). rewrite W1, W2, W3, L1. split; [reflexivity|].
    cbn. rewrite !app_nil_r. eapply listen_snoc; eassumption.
  - destruct L as (L1 & L2). destruct (turn_words t e l [XEnd E RunPanic]) as (W1 & W2 & W3 & _). rewrite W1, W2, W3, L1. split; [reflexivity|].
    exists s0. cbn. rewrite !app_nil_r. eapply listen_snoc; eassumption.
  - destruct ok; [|destruct r; words; exact L]. unfold cause. destruct o0 as [?|], r as [?|]; words; exact L.
Qed.

Definition calls_keep (s s' : rst) : Prop := forall a, dropped a s -> dropped a s'.
Lemma keep l s s' o : fire E l s = Some (s', o) -> calls_keep s s'.
Proof.
  intros F a D. unfold dropped in *. destruct s as [ph sv ls sh cn ch cs].
  destruct l; by_cases F; try exact D; rewrite ?nth_restage;
    try (destruct (Nat.eqb_spec n a) as [->|]; [congruence|exact D]);
    try (destruct (Nat.eqb_spec a0 a) as [->|]; [congruence|exact D]).
  all: try (rewrite nth_error_app1; [exact D|apply nth_error_Some; congruence]).
Qed.
Lemma keep_joined l s s' o : fire E l s = Some (s', o) -> joined s -> r_srv E s' = r_srv E s /\ r_lst E s' = r_lst E s /\ r_sht E s' = r_sht E s.
Proof.
  intros F (rs & rl & p & q & J1 & J2 & J3). destruct s as [ph sv ls sh cn ch cs]. cbn [r_srv r_lst r_sht] in *. subst.
  destruct l; by_cases F; auto.
Qed.
Lemma end_step t s l s' o : inv t s -> fire E l s = Some (s', o) -> end_ok (t ++ o) s'.
Proof.
  intros I F. pose proof (i_end _ _ I) as N. pose proof (i_held _ _ I) as H. pose proof (keep _ _ _ _ F) as K. pose proof (keep_joined _ _ _ _ F) as KJ. clear I.
  destruct (r_phase E s) as [| |aw|r] eqn:P.
  - unfold end_ok in N. rewrite P in N. destruct s as [ph sv ls sh cn ch cs]. cbn [r_phase r_srv r_lst r_sht r_cancel r_chan r_calls] in *. subst.
    destruct N as (N1 & N2 & N3 & N4 & N5 & N6 & N7 & N8 & N9 & N10). subst.
    destruct l; cbn [fire r_phase r_calls] in F; try discriminate F; try (destruct a; discriminate F).
    destruct ok; injection F as <- <-; unfold end_ok; cbn [r_phase set_phase]; words; rewrite ?N1, ?N2, ?N3; [repeat split|].
    split; [reflexivity|]. right; left. words. repeat split; auto.
  - unfold end_ok in N. rewrite P in N. destruct N as (N1 & N2 & N3). destruct s as [ph sv ls sh cn ch cs]. cbn [r_phase r_srv r_lst r_sht r_cancel r_chan r_calls] in *. subst.
    destruct l; by_cases F; unfold end_ok; cbn [r_phase]; words; rewrite ?N1, ?N2, ?N3; auto.
    all: try (split; [reflexivity|]; left; words; auto; fail).
    all: try (split; [reflexivity|split; [reflexivity|split; [reflexivity|]]]; do 4 eexists; repeat split; reflexivity).
    all: split; [reflexivity|]; right; right; do 4 eexists; (split; [reflexivity|split; [reflexivity|split; [reflexivity|]]]); left; words; (split; [reflexivity|split; [exact N1|split; [exact N2|]]]).
    all: eexists; split; [reflexivity|]; unfold dropped; cbn [r_calls]; destruct (H _ (or_intror eq_refl)) as (c' & Hc & _ & Hd); destruct (Hd eq_refl) as [-> | ->]; congruence.
  - unfold end_ok in N. rewrite P in N. destruct N as (N1 & N2 & N3 & J). specialize (KJ J). destruct KJ as (K1 & K2 & K3).
    assert (J' : joined s') by (destruct J as (rs & rl & p & q & J1 & J2 & J3); exists rs, rl, p, q; repeat split; congruence). clear K1 K2 K3.
    destruct s as [ph sv ls sh cn ch cs]. cbn [r_phase r_srv r_lst r_sht r_cancel r_chan r_calls] in *. subst.
    destruct l; by_cases F; unfold end_ok; cbn [r_phase]; words; rewrite ?N1, ?N2, ?N3; auto.
    split; [reflexivity|]. right; right. destruct J as (rs & rl & p & q & J1 & J2 & J3). cbn [r_srv r_lst r_sht] in J1, J2, J3. injection J1 as <-. injection J2 as <- <-. subst.
    do 4 eexists. split; [reflexivity|]. split; [reflexivity|]. split; [reflexivity|]. right. exists ok. words. rewrite ?N1, ?N2. auto.
  - unfold end_ok in N. rewrite P in N. destruct N as (N1 & W).
    assert (S : r_phase E s' = FOver r /\ forall x, In x o -> by_app E x).
    { clear -F P. destruct s as [ph sv ls sh cn ch cs]. cbn [r_phase] in P. subst.
      destruct l; by_cases F; (split; [reflexivity|]); intros x X; cbn [In] in X; repeat (destruct X as [<-|X]; [exact Logic.I|]); elim X. }
    destruct S as (S & A). unfold end_ok. rewrite S.
    assert (Z : forall B (f : rout -> list B), (forall x, by_app E x -> f x = []) -> flat_map f (t ++ o) = flat_map f t).
    { intros B f Hf. rewrite flat_map_app. replace (flat_map f o) with (@nil B); [apply app_nil_r|]. clear -A Hf. induction o as [|x o IH]; [reflexivity|]. cbn [flat_map].
      rewrite (Hf x (A x (or_introl eq_refl))). cbn [app]. apply IH. intros y Y. apply A. right. exact Y. }
    assert (Z' : ends E (t ++ o) = ends E t /\ srvs E (t ++ o) = srvs E t /\ lsts E (t ++ o) = lsts E t /\ stops E (t ++ o) = stops E t /\ turns E (t ++ o) = turns E t /\ told E (t ++ o) = told E t /\ heard E (t ++ o) = heard E t)
      by (repeat split; apply Z; intros []; cbn; tauto).
    destruct Z' as (Z1 & Z2 & Z3 & Z4 & Z5 & Z6 & Z7). unfold why. rewrite Z1, Z2, Z3, Z4, Z5, Z6, Z7. split; [exact N1|].
    destruct W as [W|[W|(rs & rl & p & q & J1 & J2 & J3 & W)]]; [left; exact W|right; left; exact W|right; right].
    destruct (KJ ltac:(exists rs, rl, p, q; auto)) as (K1 & K2 & K3). exists rs, rl, p, q. rewrite K1, K2, K3. repeat (split; [assumption|]).
    destruct W as [(W1 & W2 & W3 & a & W4 & W5)|W]; [left|right; exact W]. repeat (split; [assumption|]). exists a. split; [exact W4|exact (K a W5)].
Qed.

(** * Calls *)
Lemma no_call t o a w : (forall x, In x o -> ~ by_app E x) -> In (XCall E a w) (t ++ o) <-> In (XCall E a w) t.
Proof. intros H. rewrite in_app_iff. split; [|auto]. intros [J|J]; [exact J|]. elim (H _ J Logic.I). Qed.
Lemma no_ret t o a k : (forall x, In x o -> ~ by_app E x) -> In (XRet E a k) (t ++ o) <-> In (XRet E a k) t.
Proof. intros H. rewrite in_app_iff. split; [|auto]. intros [J|J]; [exact J|]. elim (H _ J Logic.I). Qed.
Definition of_app (l : label) : bool := match l with LCall _ | LSend _ | LReturn _ | LDrop _ => true | _ => false end.
Lemma run_outs l s s' o : fire E l s = Some (s', o) -> of_app l = false -> forall x, In x o -> ~ by_app E x.
Proof.
  intros F A x X. destruct l; try discriminate A; clear A; destruct s as [ph sv ls sh cn ch cs]; by_cases F; cbn [In app] in X;
    repeat match type of X with
    | In _ (_ ++ _) => apply in_app_iff in X; cbn [In] in X
    | In _ (map _ _) => let y := fresh in apply in_map_iff in X as (y & <- & _); intros []
    | _ \/ _ => destruct X as [X|X]
    | _ = x => subst x; intros []
    | False => elim X
    end.
Qed.

(** what changes for the calls when the application does nothing *)
Lemma run_calls l s s' o : fire E l s = Some (s', o) -> of_app l = false ->
  r_calls E s' = r_calls E s \/
  exists a, r_sht E s = SDone (Some (Some a)) /\ nth_error (r_calls E s) a = Some (true, CWait) /\ r_calls E s' = restage a CAns (r_calls E s) /\ r_phase E s' = FEmit None /\ joined s' \/
  (exists w, r_sht E s = SDone (Some (Some a)) /\ nth_error (r_calls E s) a = Some (w, CWait) /\ w = false).
Proof.
  intros F A. destruct l; try discriminate A; clear A; destruct s as [ph sv ls sh cn ch cs]; by_cases F; try (left; reflexivity).
  right. exists n. destruct b; [left|right; eexists; repeat split; eassumption].
  split; [reflexivity|]. split; [assumption|]. split; [reflexivity|]. split; [reflexivity|]. do 4 eexists. repeat split; reflexivity.
Qed.
Lemma run_chan l s s' o : fire E l s = Some (s', o) -> of_app l = false ->
  (forall q, In q (r_chan E s') -> In q (r_chan E s)) /\
  (forall a, r_sht E s' = SCall (Some (Some a)) \/ r_sht E s' = SDone (Some (Some a)) ->
     r_sht E s = SCall (Some (Some a)) \/ r_sht E s = SDone (Some (Some a)) \/ In (Some a) (r_chan E s)) /\
  (r_phase E s' = FJoin -> r_phase E s = FNew \/ r_phase E s = FJoin).
Proof.
  intros F A. destruct l; try discriminate A; clear A; destruct s as [ph sv ls sh cn ch cs]; by_cases F.
  all: split; [intros x X; try (right; exact X); exact X|split; [|intros Z; try discriminate Z; auto]].
  all: try (intros a' [Z|Z]; try discriminate Z; auto; fail).
  - intros a' [Z|Z]; [injection Z as ->|discriminate Z]. right. right. left. reflexivity.
  - intros a' [Z|Z]; [discriminate Z|injection Z as ->]. auto.
Qed.
Lemma joined_keep l s s' o : fire E l s = Some (s', o) -> joined s -> joined s'.
Proof.
  intros F J. destruct (keep_joined _ _ _ _ F J) as (A & B & C). destruct J as (rs & rl & p & q & J1 & J2 & J3).
  exists rs, rl, p, q. repeat split; congruence.
Qed.
Lemma answered_keep l s s' o : fire E l s = Some (s', o) -> answered s -> answered s'.
Proof.
  intros F (J & P). split; [exact (joined_keep _ _ _ _ F J)|]. clear J. destruct s as [ph sv ls sh cn ch cs]. cbn [r_phase] in P.
  destruct l; by_cases F; try exact P; try elim P; try exact Logic.I.
  destruct ok; [|exact Logic.I]. unfold cause. destruct o0; [exact Logic.I|]. destruct r; exact Logic.I.
Qed.
Record cinv (t : list rout) (s : rst) : Prop := mkCinv {
  c_calls : forall a w, In (XCall E a w) t <-> exists c, nth_error (r_calls E s) a = Some (w, c);
  c_chan : forall a, In (Some a) (r_chan E s) -> exists c, nth_error (r_calls E s) a = Some (true, c) /\ c <> CNew /\ (r_phase E s = FJoin -> c = CWait \/ c = CDrop);
  c_held : forall a, r_sht E s = SCall (Some (Some a)) \/ r_sht E s = SDone (Some (Some a)) ->
             exists c, nth_error (r_calls E s) a = Some (true, c) /\ c <> CNew /\ (r_phase E s = FJoin -> c = CWait \/ c = CDrop);
  c_ans : forall a w, nth_error (r_calls E s) a = Some (w, CAns) -> w = true /\ answered s;
  c_ret : forall a ok, In (XRet E a ok) t -> exists w, nth_error (r_calls E s) a = Some (w, CRet) /\ (ok = true -> w = true -> answered s);
  c_rets : forall a w, nth_error (r_calls E s) a = Some (w, CRet) -> exists ok, In (XRet E a ok) t
}.
Lemma run_step t s l s' o : inv t s -> fire E l s = Some (s', o) -> of_app l = false -> cinv (t ++ o) s'.
Proof.
  intros I F A. pose proof (run_outs _ _ _ _ F A) as O. pose proof (run_calls _ _ _ _ F A) as C. destruct (run_chan _ _ _ _ F A) as (CH & HE & PH).
  pose proof (answered_keep _ _ _ _ F) as JK.
  assert (NW : r_phase E s = FNew -> r_calls E s = []).
  { intros P. pose proof (i_end _ _ I) as N. unfold end_ok in N. rewrite P in N. apply N. }
  assert (HD : forall a, r_sht E s' = SCall (Some (Some a)) \/ r_sht E s' = SDone (Some (Some a)) ->
    exists c, nth_error (r_calls E s) a = Some (true, c) /\ c <> CNew /\ (r_phase E s = FJoin -> c = CWait \/ c = CDrop)).
  { intros a H. destruct (HE a H) as [H1|[H1|H1]]; [apply (i_held _ _ I); auto|apply (i_held _ _ I); auto|apply (i_chan _ _ I); exact H1]. }
  destruct C as [C|(a0 & [(S1 & S2 & S3 & S4 & S5)|(w & S1 & S2 & ->)])].
  - split.
    + intros a w. rewrite (no_call _ _ _ _ O), C. apply (i_calls _ _ I).
    + intros a H. rewrite C. destruct (i_chan _ _ I a (CH _ H)) as (c & H1 & H2 & H3). exists c. split; [exact H1|]. split; [exact H2|]. intros P. destruct (PH P) as [Q|Q]; [rewrite (NW Q) in H1; destruct a; discriminate H1|auto].
    + intros a H. rewrite C. destruct (HD a H) as (c & H1 & H2 & H3). exists c. split; [exact H1|]. split; [exact H2|]. intros P. destruct (PH P) as [Q|Q]; [rewrite (NW Q) in H1; destruct a; discriminate H1|auto].
    + intros a w. rewrite C. intros H. destruct (i_ans _ _ I a w H) as (H1 & H2). split; [exact H1|exact (JK H2)].
    + intros a ok. rewrite (no_ret _ _ _ _ O), C. intros H. destruct (i_ret _ _ I a ok H) as (w & H1 & H2). exists w. split; [exact H1|]. intros; apply JK; auto.
    + intros a w. rewrite C. intros H. destruct (i_rets _ _ I a w H) as (ok & H1). exists ok. apply (no_ret _ _ _ _ O). exact H1.
  - assert (R : forall a, nth_error (r_calls E s') a = if Nat.eqb a0 a then Some (true, CAns) else nth_error (r_calls E s) a) by (intros a; rewrite S3, nth_restage, S2; reflexivity).
    split.
    + intros a w. rewrite (no_call _ _ _ _ O), R, (i_calls _ _ I). destruct (Nat.eqb_spec a0 a) as [<-|]; [|reflexivity]. rewrite S2.
      split; intros (c & H); injection H as <- _; eexists; reflexivity.
    + intros a H. rewrite R. destruct (Nat.eqb a0 a); [exists CAns; split; [reflexivity|]; split; [discriminate|rewrite S4; discriminate]|].
      destruct (i_chan _ _ I a (CH _ H)) as (c & H1 & H2 & H3). exists c. split; [exact H1|]. split; [exact H2|]. rewrite S4; discriminate.
    + intros a H. rewrite R. destruct (Nat.eqb a0 a); [exists CAns; split; [reflexivity|]; split; [discriminate|rewrite S4; discriminate]|].
      destruct (HD a H) as (c & H1 & H2 & H3). exists c. split; [exact H1|]. split; [exact H2|]. rewrite S4; discriminate.
    + assert (AN : answered s') by (split; [exact S5|rewrite S4; exact Logic.I]).
      intros a w. rewrite R. destruct (Nat.eqb a0 a); [intros H; injection H as <-; auto|].
      intros H. destruct (i_ans _ _ I a w H) as (H1 & H2). auto.
    + intros a ok. rewrite (no_ret _ _ _ _ O). intros H. destruct (i_ret _ _ I a ok H) as (w & H1 & H2). exists w. rewrite R. destruct (Nat.eqb_spec a0 a) as [<-|]; [rewrite S2 in H1; discriminate H1|]. auto.
    + intros a w. rewrite R. destruct (Nat.eqb a0 a); [discriminate|]. intros H. destruct (i_rets _ _ I a w H) as (ok & H1). exists ok. apply (no_ret _ _ _ _ O). exact H1.
  - destruct (i_held _ _ I a0 (or_intror S1)) as (c & H & _). rewrite S2 in H. discriminate H.
Qed.

Lemma nth_new (l : list call) w a : nth_error (l ++ [(w, CNew)]) a = if Nat.eqb a (length l) then Some (w, CNew) else nth_error l a.
Proof.
  destruct (Nat.eqb_spec a (length l)) as [->|N]; [rewrite nth_error_app2, Nat.sub_diag by lia; reflexivity|].
  destruct (Nat.lt_ge_cases a (length l)); [apply nth_error_app1; assumption|]. rewrite nth_error_app2 by lia.
  rewrite (proj2 (nth_error_None l a)) by lia. destruct (Nat.sub a (length l)) as [|k] eqn:D; [lia|]. destruct k; reflexivity.
Qed.
(** what the application may do *)
Lemma app_cases l s s' o : (r_phase E s = FNew -> r_calls E s = []) -> fire E l s = Some (s', o) -> of_app l = true ->
  r_phase E s' = r_phase E s /\ r_srv E s' = r_srv E s /\ r_lst E s' = r_lst E s /\ r_sht E s' = r_sht E s /\ r_cancel E s' = r_cancel E s /\
  r_phase E s <> FNew /\
  ((exists w, l = LCall w /\ r_calls E s' = r_calls E s ++ [(w, CNew)] /\ r_chan E s' = r_chan E s /\ o = [XCall E (length (r_calls E s)) w]) \/
   exists a w c c', nth_error (r_calls E s) a = Some (w, c) /\ c <> CRet /\ c <> CDrop /\ r_calls E s' = restage a c' (r_calls E s) /\
     ((c = CNew /\ w = true /\ c' = CWait /\ r_chan E s' = r_chan E s ++ [Some a] /\ o = []) \/
      (c = CNew /\ w = false /\ c' = CRet /\ r_chan E s' = r_chan E s ++ [None] /\ o = [XRet E a true]) \/
      (c = CNew /\ c' = CRet /\ r_chan E s' = r_chan E s /\ o = [XRet E a false] /\ exists r, r_phase E s = FOver r) \/
      (c = CAns /\ c' = CRet /\ r_chan E s' = r_chan E s /\ o = [XRet E a true]) \/
      (c = CWait /\ c' = CRet /\ r_chan E s' = r_chan E s /\ o = [XRet E a false] /\ has_sender E a s = false) \/
      (c' = CDrop /\ r_chan E s' = r_chan E s /\ o = []))).
Proof.
  intros NF F A. assert (NW : forall a c, nth_error (r_calls E s) a = Some c -> r_phase E s <> FNew) by (intros a c N P; rewrite (NF P) in N; destruct a; discriminate N).
  destruct l as [| | | | | | | | | | | |w|a|a|a]; try discriminate A; clear A.
  - cbn [fire] in F. destruct (r_phase E s) eqn:P; try discriminate F; injection F as <- <-; cbn; rewrite P; (do 5 (split; [reflexivity|])); (split; [discriminate|]); left; exists w; repeat split; reflexivity.
  - cbn [fire] in F. destruct (nth_error (r_calls E s) a) as [[w c]|] eqn:N; [|discriminate F]. specialize (NW _ _ N). destruct c; try discriminate F.
    assert (Q : (exists r, r_phase E s = FOver r /\ (s', o) = (stage E a CRet s, [XRet E a false])) \/
      (s', o) = (let s1 := set_calls E (r_chan E s ++ [if w then Some a else None]) (r_calls E s) s in if w then (stage E a CWait s1, []) else (stage E a CRet s1, [XRet E a true]))).
    { destruct (r_phase E s); try contradiction; [| |left; eexists; split; [reflexivity|congruence]];
        (destruct (Nat.ltb (length (r_chan E s)) 2); [|discriminate F]; right; destruct w; cbv zeta; congruence). }
    clear F. destruct Q as [(r & P & Q)|Q].
    + injection Q as -> ->. rewrite stage_is. cbn. do 5 (split; [reflexivity|]). split; [exact NW|]. right. exists a, w, CNew, CRet.
      split; [exact N|]. do 2 (split; [discriminate|]). split; [reflexivity|]. right; right; left. repeat split. exists r. exact P.
    + cbv zeta in Q. destruct w; injection Q as -> ->; rewrite stage_is; cbn; (do 5 (split; [reflexivity|])); (split; [exact NW|]); right; [exists a, true, CNew, CWait|exists a, false, CNew, CRet];
        (split; [exact N|]); (do 2 (split; [discriminate|])); (split; [reflexivity|]); [left|right; left]; repeat split.
  - cbn [fire] in F. destruct (nth_error (r_calls E s) a) as [[w c]|] eqn:N; [|discriminate F]. specialize (NW _ _ N). destruct c; try discriminate F.
    + destruct (has_sender E a s) eqn:HS; [discriminate F|]. injection F as <- <-. rewrite stage_is. cbn. do 5 (split; [reflexivity|]). split; [exact NW|]. right. exists a, w, CWait, CRet.
      split; [exact N|]. do 2 (split; [discriminate|]). split; [reflexivity|]. do 4 right; left. repeat split. exact HS.
    + injection F as <- <-. rewrite stage_is. cbn. do 5 (split; [reflexivity|]). split; [exact NW|]. right. exists a, w, CAns, CRet.
      split; [exact N|]. do 2 (split; [discriminate|]). split; [reflexivity|]. do 3 right; left. repeat split.
  - cbn [fire] in F. destruct (nth_error (r_calls E s) a) as [[w c]|] eqn:N; [|discriminate F]. specialize (NW _ _ N).
    destruct c; try discriminate F; injection F as <- <-; rewrite stage_is; cbn; (do 5 (split; [reflexivity|])); (split; [exact NW|]); right; eexists a, w, _, CDrop; (split; [exact N|]); (do 2 (split; [discriminate|])); (split; [reflexivity|]); do 5 right; repeat split.
Qed.
Lemma app_step t s l s' o : inv t s -> fire E l s = Some (s', o) -> of_app l = true -> cinv (t ++ o) s'.
Proof.
  intros I F A. assert (NF : r_phase E s = FNew -> r_calls E s = []) by (intros P; pose proof (i_end _ _ I) as Q; unfold end_ok in Q; rewrite P in Q; apply Q).
  destruct (app_cases _ _ _ _ NF F A) as (P & S1 & S2 & S3 & _ & NW & C).
  assert (JK : answered s -> answered s') by apply (answered_keep _ _ _ _ F).
  destruct C as [(w & -> & C1 & C2 & ->)|(a0 & w0' & c0 & c' & N & NR & ND & C1 & C)].
  - assert (R : forall a v d, nth_error (r_calls E s') a = Some (v, d) <-> (a = length (r_calls E s) /\ v = w /\ d = CNew) \/ nth_error (r_calls E s) a = Some (v, d)).
    { intros a v d. rewrite C1, nth_new. destruct (Nat.eqb_spec a (length (r_calls E s))) as [->|Q].
      - rewrite (proj2 (nth_error_None _ _)) by lia. split; [intros H; injection H as <- <-; auto|]. intros [(_ & -> & ->)|H]; [reflexivity|discriminate H].
      - split; [auto|]. intros [(H & _)|H]; [contradiction|exact H]. }
    split.
    + intros a v. rewrite in_app_iff, (i_calls _ _ I). cbn [In]. split.
      * intros [(c & H)|[H|[]]]; [exists c; apply R; auto|]. injection H as <- <-. exists CNew. apply R. auto.
      * intros (c & H). apply R in H as [(-> & -> & ->)|H]; [right; left; reflexivity|left; exists c; exact H].
    + intros a. rewrite C2, P. intros H. destruct (i_chan _ _ I a H) as (c & H1 & H2). exists c. rewrite R. auto.
    + intros a. rewrite S3, P. intros H. destruct (i_held _ _ I a H) as (c & H1 & H2). exists c. rewrite R. auto.
    + intros a v. rewrite R. intros [(_ & _ & H)|H]; [discriminate H|]. destruct (i_ans _ _ I a v H) as (H1 & H2). auto.
    + intros a ok. rewrite in_app_iff. cbn [In]. intros [H|[H|[]]]; [|discriminate H]. destruct (i_ret _ _ I a ok H) as (v & H1 & H2). exists v. rewrite R. split; auto.
    + intros a v. rewrite R. intros [(_ & _ & H)|H]; [discriminate H|]. destruct (i_rets _ _ I a v H) as (ok & H1). exists ok. apply in_app_iff. auto.
  - assert (R : forall a, nth_error (r_calls E s') a = if Nat.eqb a0 a then Some (w0', c') else nth_error (r_calls E s) a) by (intros a; rewrite C1, nth_restage, N; reflexivity).
    assert (OC : forall a v, ~ In (XCall E a v) o).
    { intros a v H. destruct C as [(_ & _ & _ & _ & ->)|[(_ & _ & _ & _ & ->)|[(_ & _ & _ & -> & _)|[(_ & _ & _ & ->)|[(_ & _ & _ & -> & _)|(_ & _ & ->)]]]]]; cbn [In] in H; try (destruct H; fail); destruct H as [H|[]]; discriminate H. }
    assert (OR : forall a k, In (XRet E a k) o -> a = a0 /\ c' = CRet /\ (k = true -> w0' = true -> c0 = CAns)).
    { intros a k H. destruct C as [(_ & _ & _ & _ & ->)|[(_ & D2 & D3 & _ & ->)|[(_ & D3 & _ & -> & _)|[(D1 & D3 & _ & ->)|[(_ & D3 & _ & -> & _)|(_ & _ & ->)]]]]]; cbn [In] in H; try (destruct H; fail); destruct H as [H|[]]; injection H as <- <-; (split; [reflexivity|]); (split; [exact D3|]); intros; try discriminate; try congruence. }
    assert (CR : c' = CRet -> exists k, In (XRet E a0 k) o).
    { intros ->. destruct C as [(_ & _ & D & _)|[(_ & _ & _ & _ & ->)|[(_ & _ & _ & -> & _)|[(_ & _ & _ & ->)|[(_ & _ & _ & -> & _)|(D & _)]]]]]; try discriminate D; eexists; left; reflexivity. }
    assert (CS : forall a, In (Some a) (r_chan E s') -> In (Some a) (r_chan E s) \/ (a = a0 /\ w0' = true /\ c' = CWait)).
    { intros a H. destruct C as [(_ & D1 & D2 & D & _)|[(_ & _ & _ & D & _)|[(_ & _ & D & _)|[(_ & _ & D & _)|[(_ & _ & D & _)|(_ & D & _)]]]]]; rewrite D in H; auto; apply in_app_iff in H as [H|[H|[]]]; auto; [injection H as <-; auto|discriminate H]. }
    assert (BAD : forall a, (In (Some a) (r_chan E s) \/ r_sht E s = SCall (Some (Some a)) \/ r_sht E s = SDone (Some (Some a))) ->
              exists c, nth_error (r_calls E s') a = Some (true, c) /\ c <> CNew /\ (r_phase E s' = FJoin -> c = CWait \/ c = CDrop)).
    { intros a H. assert (G : exists c, nth_error (r_calls E s) a = Some (true, c) /\ c <> CNew /\ (r_phase E s = FJoin -> c = CWait \/ c = CDrop)) by (destruct H as [H|H]; [apply (i_chan _ _ I a H)|apply (i_held _ _ I a H)]).
      destruct G as (c & G1 & G2 & G3). rewrite R, P. destruct (Nat.eqb_spec a0 a) as [<-|]; [|exists c; auto].
      rewrite N in G1. injection G1 as -> <-. exists c'. split; [reflexivity|].
      destruct C as [(D & _)|[(D & _)|[(D & _)|[(D & D1 & _)|[(D & D1 & _ & _ & D2)|(D & _)]]]]]; try contradiction.
      - subst. split; [discriminate|]. intros Q. destruct (i_ans _ _ I a0 _ N) as (_ & _ & Z). rewrite Q in Z. elim Z.
      - subst. split; [discriminate|]. intros Q. exfalso. unfold has_sender in D2. rewrite Q in D2. apply orb_false_iff in D2 as (D2 & D3).
        destruct H as [H|[H|H]].
        + assert (X : existsb (is_for a0) (r_chan E s) = true) by (apply existsb_exists; exists (Some a0); split; [exact H|apply Nat.eqb_refl]). congruence.
        + rewrite H in D3. cbn in D3. rewrite Nat.eqb_refl in D3. discriminate D3.
        + rewrite H in D3. cbn in D3. rewrite Nat.eqb_refl in D3. discriminate D3.
      - subst. split; [discriminate|auto]. }
    split.
    + intros a v. rewrite in_app_iff, (i_calls _ _ I), R. destruct (Nat.eqb_spec a0 a) as [<-|]; [rewrite N|].
      * split; [intros [(c & H)|H]; [injection H as <- _; eexists; reflexivity|elim (OC _ _ H)]|]. intros (c & H). injection H as <- _. left. eexists. reflexivity.
      * split; [intros [H|H]; [exact H|elim (OC _ _ H)]|auto].
    + intros a H. destruct (CS a H) as [H1|(-> & -> & ->)]; [apply BAD; auto|]. exists CWait. rewrite R, Nat.eqb_refl. split; [reflexivity|]. split; [discriminate|auto].
    + intros a. rewrite S3. intros H. apply BAD. auto.
    + intros a v. rewrite R. destruct (Nat.eqb_spec a0 a) as [<-|].
      * intros H. injection H as -> ->. destruct C as [(_ & _ & D & _)|[(_ & _ & D & _)|[(_ & D & _)|[(_ & D & _)|[(_ & D & _)|(D & _)]]]]]; discriminate D.
      * intros H. destruct (i_ans _ _ I a v H) as (H1 & H2). auto.
    + intros a k H. apply in_app_iff in H as [H|H].
      * destruct (i_ret _ _ I a k H) as (v & H1 & H2). exists v. rewrite R. destruct (Nat.eqb_spec a0 a) as [<-|]; [rewrite N in H1; injection H1 as _ ->; contradiction|]. auto.
      * destruct (OR a k H) as (-> & -> & H1). exists w0'. rewrite R, Nat.eqb_refl. split; [reflexivity|]. intros K W. apply JK. specialize (H1 K W). subst. apply (i_ans _ _ I _ _ N).
    + intros a v. rewrite R. destruct (Nat.eqb_spec a0 a) as [<-|].
      * intros H. injection H as -> D. destruct (CR D) as (k & K). exists k. apply in_app_iff. auto.
      * intros H. destruct (i_rets _ _ I a v H) as (ok & H1). exists ok. apply in_app_iff. auto.
Qed.
Lemma step_inv t s l s' o : inv t s -> fire E l s = Some (s', o) -> inv (t ++ o) s'.
Proof.
  intros I F. assert (C : cinv (t ++ o) s') by (destruct (of_app l) eqn:A; [eapply app_step|eapply run_step]; eassumption). destruct C.
  split; try assumption; [eapply srv_step|eapply lst_step|eapply sht_step|eapply end_step]; eassumption.
Qed.
Lemma runs_inv ls : forall t s s' o, inv t s -> runs E ls s = Some (s', o) -> inv (t ++ o) s'.
Proof.
  induction ls as [|l ls IH]; intros t s s' o I H; cbn [runs] in H.
  - injection H as <- <-. rewrite app_nil_r. exact I.
  - destruct (fire E l s) as [[s1 o1]|] eqn:F; [|discriminate H]. destruct (runs E ls s1) as [[s2 o2]|] eqn:R; [|discriminate H]. injection H as <- <-.
    rewrite app_assoc. eapply IH; [|exact R]. eapply step_inv; eassumption.
Qed.
End Proofs.

(** * Prefixes of an execution *)
Section Prefix.
Variable E : env.
Lemma over_step l s s' o r : fire E l s = Some (s', o) -> r_phase E s = FOver r -> r_phase E s' = FOver r /\ forall x, In x o -> by_app E x.
Proof.
  intros F P. destruct s as [ph sv ls sh cn ch cs]. cbn [r_phase] in P. subst. destruct l; cbn [fire r_phase r_srv r_lst r_sht r_calls] in F;
    repeat match type of F with
    | match ?x with _ => _ end = _ => destruct x eqn:?; try discriminate F
    end; try discriminate F; injection F as <- <-; unfold stage; cbn [r_calls];
    repeat match goal with H : nth_error _ _ = _ |- _ => rewrite H end; (split; [reflexivity|]);
    intros x X; cbn [In] in X; repeat (destruct X as [<-|X]; [exact Logic.I|]); elim X.
Qed.
Lemma over_runs ls : forall s s' o r, runs E ls s = Some (s', o) -> r_phase E s = FOver r -> r_phase E s' = FOver r /\ Forall (by_app E) o.
Proof.
  induction ls as [|l ls IH]; intros s s' o r H P; cbn [runs] in H.
  - injection H as <- <-. auto.
  - destruct (fire E l s) as [[s1 o1]|] eqn:F; [|discriminate H]. destruct (runs E ls s1) as [[s2 o2]|] eqn:R; [|discriminate H]. injection H as <- <-.
    destruct (over_step _ _ _ _ _ F P) as (P1 & A). destruct (IH _ _ _ _ R P1) as (P2 & A2). split; [exact P2|]. apply Forall_app. split; [apply Forall_forall; exact A|exact A2].
Qed.
(** an output at which [run] ends, or at which a call returns, is the last of its step *)
Definition final (o : rout E) : Prop := match o with XEnd _ _ | XRet _ _ _ => True | _ => False end.
Lemma last_out l s s' o t1 x t2 : fire E l s = Some (s', o) -> o = t1 ++ x :: t2 -> final x -> t2 = [] /\ (forall r, x = XEnd E r -> r_phase E s' = FOver r).
Proof.
  intros F O X.
  assert (M : forall (q : list (out E)) y, (final y \/ exists r, y = XLst E r) -> forall t1, XTurn E (match l with LFinish => match r_lst E s with LBusy _ e _ _ => e | _ => VCancel end | _ => VCancel end) :: map (XOut E) q ++ [y] = t1 ++ x :: t2 -> x = y /\ t2 = []).
  { intros q y _. assert (Q : forall t1, map (XOut E) q ++ [y] = t1 ++ x :: t2 -> x = y /\ t2 = []).
    { induction q as [|z q IH]; intros [|u t] H; cbn [map app] in H.
      - injection H as <- <-. auto.
      - injection H as _ H. destruct t; discriminate H.
      - injection H as <- _. elim X.
      - injection H as _ H. exact (IH t H). }
    intros [|u t] H; cbn [app] in H; [injection H as <- _; elim X|injection H as _ H; exact (Q t H)]. }
  assert (Z : forall y, [y] = t1 ++ x :: t2 -> x = y /\ t2 = []).
  { intros y H. destruct t1 as [|u t]; cbn [app] in H; [injection H as <- <-; auto|]. injection H as _ H. destruct t; discriminate H. }
  assert (Z0 : [] = t1 ++ x :: t2 -> False) by (destruct t1; discriminate).
  subst o. destruct l; cbn [fire] in F;
    repeat match type of F with
    | match ?x with _ => _ end = _ => destruct x eqn:?; try discriminate F
    | (let _ := _ in _) = _ => cbv zeta in F
    end; try discriminate F; injection F as <- F;
    try (elim (Z0 F); fail);
    try (destruct (Z _ F) as (-> & ->); split; [reflexivity|]; intros rr Q; first [discriminate Q|injection Q as <-; reflexivity]).
  - (* an event without an end *)
    exfalso. assert (Q : In x (XTurn E e :: map (XOut E) l)) by (rewrite F; apply in_app_iff; right; left; reflexivity).
    destruct Q as [<-|Q]; [elim X|]. apply in_map_iff in Q as (u & <- & _). elim X.
  - destruct (M l (XLst E None) (or_intror (ex_intro _ None eq_refl)) t1 F) as (-> & ->). elim X.
  - destruct (M l (XLst E (Some e0)) (or_intror (ex_intro _ (Some e0) eq_refl)) t1 F) as (-> & ->). elim X.
  - destruct (M l (XEnd E RunPanic) (or_introl Logic.I) t1 F) as (-> & ->). split; [reflexivity|]. intros rr Q. injection Q as <-. reflexivity.
  - destruct t1 as [|u [|v t]]; cbn [app] in F; [injection F as <- _; elim X| |injection F as _ _ F; destruct t; discriminate F].
    injection F as _ <- <-. split; [reflexivity|]. intros rr Q. injection Q as <-. reflexivity.
Qed.
Lemma cut_at ls : forall s s' t t1 x t2, runs E ls s = Some (s', t) -> t = t1 ++ x :: t2 -> final x ->
  exists ls1 s1 ls2, runs E ls1 s = Some (s1, t1 ++ [x]) /\ runs E ls2 s1 = Some (s', t2) /\ (forall r, x = XEnd E r -> r_phase E s1 = FOver r).
Proof.
  induction ls as [|l ls IH]; intros s s' t t1 x t2 H T X; cbn [runs] in H.
  - injection H as <- <-. destruct t1; discriminate T.
  - destruct (fire E l s) as [[s1 o1]|] eqn:F; [|discriminate H]. destruct (runs E ls s1) as [[s2 o2]|] eqn:R; [|discriminate H]. injection H as <- <-.
    assert (Q : (exists z, o1 = t1 ++ x :: z /\ t2 = z ++ o2) \/ (exists z, t1 = o1 ++ z /\ o2 = z ++ x :: t2)).
    { clear -T. revert t1 T. induction o1 as [|u o1 IH]; intros t1 T; [right; exists t1; auto|]. destruct t1 as [|v t1]; cbn [app] in T; injection T as <- T.
      - left. exists o1. auto.
      - destruct (IH t1 T) as [(z & -> & ->)|(z & -> & ->)]; [left|right]; exists z; auto. }
    destruct Q as [(z & Q1 & Q2)|(z & Q1 & Q2)].
    + destruct (last_out _ _ _ _ _ _ _ F Q1 X) as (-> & L). exists [l], s1, ls. cbn [runs]. rewrite F, app_nil_r. subst. cbn [app]. auto.
    + destruct (IH _ _ _ _ _ _ R Q2 X) as (l1 & s1' & l2 & A & B & C). exists (l :: l1), s1', l2. cbn [runs]. rewrite F, A. subst. rewrite <- app_assoc. auto.
Qed.
End Prefix.

(** * C107: what [run] returns, and when *)
(** When [run] returns [r], nothing of it runs any more.  Either the listener has
    panicked, or the observer of the transport could not be had and nothing at all has
    happened, or each of the three pieces of code has ended exactly once before; then
    either the shutdown handler was told, exactly once and after them, and [r] is the
    handler's failure, or else the transport's error, or else the listener's, or else
    [Ok]; or the handler was never told and [r] is a channel error because the one who
    called [shutdown(true)] has given up waiting.  The theorem is partial: [listen]
    and [shutdown] of the transport are results, not code, and when they end is up to
    the execution. *)
Theorem C107_reported_partial : forall (E : env) (w : e_world E) ls s' t t1 r t2,
  runs E ls (start E w) = Some (s', t) -> t = t1 ++ XEnd E r :: t2 ->
  Forall (by_app E) t2 /\
  ((r = RunPanic /\ told E t1 = [] /\ exists p, listen E (turns E t1) (ProducerModel.start E w) = (outs E t1, (p, PPanic))) \/
   (r = RunErr EServer /\ srvs E t1 = [] /\ lsts E t1 = [] /\ stops E t1 = [] /\ turns E t1 = [] /\ told E t1 = []) \/
   exists rs rl ok, srvs E t1 = [rs] /\ lsts E t1 = [rl] /\ stops E t1 = [ok] /\
     ((told E t1 = [tt] /\ heard E t1 = [false] /\ r = RunErr EEmitter) \/
      (told E t1 = [tt] /\ heard E t1 = [true] /\
         (forall e, rs = Some e -> r = RunErr e) /\
         (forall e, rs = None -> rl = Some e -> r = RunErr e) /\
         (rs = None -> rl = None -> r = RunOk)) \/
      (told E t1 = [] /\ r = RunErr EChannel /\ exists a, In (XCall E a true) t1 /\ forall k, ~ In (XRet E a k) t1))).
Proof.
  intros E w ls s' t t1 r t2 H T. destruct (cut_at E _ _ _ _ _ _ _ H T Logic.I) as (l1 & s1 & l2 & R1 & R2 & P). specialize (P r eq_refl).
  split; [exact (proj2 (over_runs E _ _ _ _ _ R2 P))|].
  pose proof (runs_inv E w _ _ _ _ _ (start_inv E w) R1) as I. cbn [app] in I.
  assert (W : forall B (f : rout E -> list B), f (XEnd E r) = [] -> flat_map f (t1 ++ [XEnd E r]) = flat_map f t1) by (intros B f Hf; rewrite flat_map_app; cbn [flat_map]; rewrite Hf; cbn [app]; apply app_nil_r).
  pose proof (W _ (fun o => match o with XSrv _ r => [r] | _ => [] end) eq_refl) as W1.
  pose proof (W _ (fun o => match o with XLst _ r => [r] | _ => [] end) eq_refl) as W2.
  pose proof (W _ (fun o => match o with XStop _ r => [r] | _ => [] end) eq_refl) as W3.
  pose proof (W _ (fun o => match o with XShutdown _ => [tt] | _ => [] end) eq_refl) as W4.
  pose proof (W _ (fun o => match o with XShutdownRet _ r => [r] | _ => [] end) eq_refl) as W5.
  pose proof (W _ (fun o => match o with XTurn _ r => [r] | _ => [] end) eq_refl) as W6.
  pose proof (W _ (fun o => match o with XOut _ r => [r] | _ => [] end) eq_refl) as W7. clear W.
  change (srvs E (t1 ++ [XEnd E r]) = srvs E t1) in W1. change (lsts E (t1 ++ [XEnd E r]) = lsts E t1) in W2. change (stops E (t1 ++ [XEnd E r]) = stops E t1) in W3.
  change (told E (t1 ++ [XEnd E r]) = told E t1) in W4. change (heard E (t1 ++ [XEnd E r]) = heard E t1) in W5. change (turns E (t1 ++ [XEnd E r]) = turns E t1) in W6. change (outs E (t1 ++ [XEnd E r]) = outs E t1) in W7.
  pose proof (i_end _ _ _ _ I) as N. unfold end_ok in N. rewrite P in N. destruct N as (_ & N). unfold why in N. rewrite W1, W2, W3, W4, W5, W6 in N.
  destruct N as [(-> & N1 & N2)|[N|(rs & rl & p & q & J1 & J2 & J3 & N)]].
  - left. split; [reflexivity|]. split; [exact N1|]. pose proof (i_lst _ _ _ _ I) as L. unfold lst_ok in L. rewrite P, W6, W7 in L. apply L.
  - right; left. destruct N as (N1 & N2 & N3 & N4 & N5 & N6 & N7). auto 7.
  - right; right. exists rs, rl.
    pose proof (i_srv _ _ _ _ I) as S1. rewrite J1, W1 in S1. pose proof (i_sht _ _ _ _ I) as S3. rewrite J3, W3 in S3. destruct S3 as (_ & ok & S3). exists ok.
    assert (NP : r <> RunPanic).
    { intros ->. destruct N as [(N & _)|(h & _ & _ & N)]; [discriminate N|]. destruct h; [|discriminate N]. unfold cause in N. destruct rs; [discriminate N|]. destruct rl; discriminate N. }
    assert (S2 : lsts E t1 = [rl]).
    { pose proof (i_lst _ _ _ _ I) as L. unfold lst_ok in L. rewrite P, J2, W2 in L. destruct r as [|x|]; [| |contradiction]; destruct rl; apply L. }
    split; [exact S1|]. split; [exact S2|]. split; [exact S3|].
    destruct N as [(N1 & N2 & N3 & a & -> & D)|(h & N1 & N2 & N3)].
    + right; right. split; [exact N2|]. split; [exact N1|]. exists a. unfold dropped in D. split.
      * assert (C : In (XCall E a true) (t1 ++ [XEnd E r])) by (apply (i_calls _ _ _ _ I); eexists; exact D).
        apply in_app_iff in C as [C|[C|[]]]; [exact C|discriminate C].
      * intros k K. destruct (i_ret _ _ _ _ I a k) as (v & V & _); [apply in_app_iff; auto|]. rewrite D in V. discriminate V.
    + destruct h; [right; left|left; auto]. split; [exact N1|]. split; [exact N2|]. subst r. unfold cause. repeat split; intros; subst; reflexivity.
Qed.

(** What the listener does is what ProducerModel.v says, event by event: the events
    it took, in order, give what it sent and called, and with what it ended. *)
Theorem C107_listener : forall (E : env) (w : e_world E) ls s' t,
  runs E ls (start E w) = Some (s', t) ->
  exists p x, listen E (turns E t) (ProducerModel.start E w) = (outs E t, (p, x)) /\
    (lsts E t = [] \/ exists r, lsts E t = [r]) /\
    (x = PPanic -> ends E t = [RunPanic]) /\
    (forall e, x = PStop e <-> lsts E t = [Some e]) /\
    (x = PGo false -> lsts E t = [None]).
Proof.
  intros E w ls s' t H. pose proof (runs_inv E w _ _ _ _ _ (start_inv E w) H) as I. cbn [app] in I.
  pose proof (i_lst _ _ _ _ I) as L. unfold lst_ok in L. pose proof (i_end _ _ _ _ I) as N. unfold end_ok in N.
  assert (G : (exists p x, listen E (turns E t) (ProducerModel.start E w) = (outs E t, (p, x)) /\ lsts E t = [] /\ x = PPanic /\ ends E t = [RunPanic]) \/
    (exists p, listen E (turns E t) (ProducerModel.start E w) = (outs E t, (p, PGo true)) /\ lsts E t = []) \/
    (exists p e, listen E (turns E t) (ProducerModel.start E w) = (outs E t, (p, PStop e)) /\ lsts E t = [Some e]) \/
    exists p b, listen E (turns E t) (ProducerModel.start E w) = (outs E t, (p, PGo b)) /\ lsts E t = [None]).
  { assert (M : match r_lst E s' with
      | LIdle _ p | LBusy _ _ _ p => lsts E t = [] /\ listen E (turns E t) (ProducerModel.start E w) = (outs E t, (p, PGo true))
      | LEnded _ (Some x) p => lsts E t = [Some x] /\ listen E (turns E t) (ProducerModel.start E w) = (outs E t, (p, PStop x))
      | LEnded _ None p => lsts E t = [None] /\ exists b, listen E (turns E t) (ProducerModel.start E w) = (outs E t, (p, PGo b))
      end \/ r_phase E s' = FOver RunPanic) by (destruct (r_phase E s') as [| | |[]]; auto).
    destruct M as [M|M].
    - destruct (r_lst E s') as [p|e aw p|[x|] p].
      + destruct M as (M1 & M2). right; left. exists p. auto.
      + destruct M as (M1 & M2). right; left. exists p. auto.
      + destruct M as (M1 & M2). right; right; left. exists p, x. auto.
      + destruct M as (M1 & b & M2). right; right; right. exists p, b. auto.
    - rewrite M in L, N. destruct L as (L1 & p & L2). left. exists p, PPanic. repeat split; auto. apply N. }
  destruct G as [(p & x & G1 & G2 & -> & G3)|[(p & G1 & G2)|[(p & e & G1 & G2)|(p & b & G1 & G2)]]]; exists p; eexists; (split; [exact G1|]); rewrite G2; (split; [eauto|]);
    (split; [intros Q; first [discriminate Q|exact G3]|]); (split; [intros e'; split; intros Q; try discriminate Q; injection Q as <-; reflexivity|]); intros Q; try discriminate Q; reflexivity.
Qed.

(** * C108: a server can be stopped *)
(** The steps that happen by themselves once a shutdown was asked for: handlers end,
    [shutdown] of the transport returns, [run] and the callers of [Control::shutdown]
    go on.  Nothing is received, [listen] of the transport does not return by itself,
    nobody calls or gives up. *)
Definition auto (l : label) : bool :=
  match l with
  | LServerCancel | LBegin VCancel | LFinish | LShut | LShutCancel | LShutDone _ | LJoined | LEmitted _ | LSend _ | LReturn _ => true
  | _ => false
  end.
Section Stop.
Variable E : env.
(** a request is in the channel or was taken, or the token is cancelled *)
Definition asked (s : rst E) : Prop := r_cancel E s = true \/ r_chan E s <> [] \/ r_sht E s <> SWait.
Definition quiet (s : rst E) : Prop := forall l, auto l = true -> fire E l s = None.
(** a handler awaits a call of [Control::shutdown] that cannot return: it waits for the
    answer, which comes after the handler only, or the channel is full *)
Definition blocked (s : rst E) : Prop :=
  exists a c, nth_error (r_calls E s) a = Some c /\
    ((exists e p, r_phase E s = FJoin /\ r_lst E s = LBusy E e (Some a) p) \/ r_phase E s = FEmit (Some a)) /\
    (c = (true, CWait) \/ (snd c = CNew /\ (2 <= length (r_chan E s))%nat)).

Definition rank_call (c : call) : nat := match snd c with CNew => 3 | CWait => 2 | CAns => 1 | _ => 0 end.
Definition rank_calls (l : list call) : nat := list_sum (map rank_call l).
Definition rank (s : rst E) : nat :=
  (match r_phase E s with FNew => 3 | FJoin => 2 | FEmit _ => 1 | FOver _ => 0 end +
  match r_srv E s with None => 1 | Some _ => 0 end +
  match r_lst E s with LIdle _ _ => 2 | LBusy _ VCancel _ _ => 1 | LBusy _ _ _ _ => 3 | LEnded _ _ _ => 0 end +
  match r_sht E s with SWait => 2 | SCall _ => 1 | SDone _ => 0 end +
  rank_calls (r_calls E s))%nat.
Lemma rank_restage a w c c' (l : list call) : nth_error l a = Some (w, c) -> (rank_calls (restage a c' l) + rank_call (w, c) = rank_calls l + rank_call (w, c'))%nat.
Proof.
  intros N. unfold restage. rewrite N. revert a N. induction l as [|d l IH]; intros [|a] N; try discriminate N; cbn [nth_error] in N.
  - injection N as ->. unfold rank_calls. cbn [set_nth map list_sum fold_right]. lia.
  - specialize (IH a N). unfold rank_calls in *. cbn [set_nth map list_sum fold_right]. unfold list_sum in IH. lia.
Qed.
Lemma step_cancel s : step E VCancel s = ([], (s, PGo false)).
Proof. reflexivity. Qed.
Lemma auto_down l s s' o : fire E l s = Some (s', o) -> auto l = true -> (rank s' < rank s)%nat.
Proof.
  intros F A. destruct s as [ph sv ls sh cn ch cs].
  assert (SM : forall a w c c', nth_error cs a = Some (w, c) -> (rank_calls (restage a c' cs) + rank_call (w, c) = rank_calls cs + rank_call (w, c'))%nat) by (intros; apply rank_restage; assumption).
  destruct l; try discriminate A; try (destruct e; discriminate A);
    cbn [fire r_phase r_srv r_lst r_sht r_cancel r_chan r_calls] in F;
    repeat match type of F with
    | match ?x with _ => _ end = _ => destruct x eqn:?; try discriminate F
    | (let _ := _ in _) = _ => cbv zeta in F
    end; try discriminate F; try discriminate A; injection F as <- <-; subst;
    rewrite ?stage_is; unfold set_phase, set_srv, set_lst, set_sht, set_calls, rank;
    cbn [r_phase r_srv r_lst r_sht r_cancel r_chan r_calls]; try lia.
  all: try (match goal with H : nth_error _ _ = Some (_, _) |- context [restage _ ?c' _] => pose proof (SM _ _ _ c' H) as Q; unfold rank_call in Q; cbn [snd] in Q end; lia).
  all: try (destruct e; first [lia|rewrite step_cancel in *; congruence]).
Qed.
Lemma auto_runs ls : forall s s' o, runs E ls s = Some (s', o) -> forallb auto ls = true -> (length ls + rank s' <= rank s)%nat.
Proof.
  induction ls as [|l ls IH]; intros s s' o H A; cbn [runs] in H.
  - injection H as <- _. cbn. lia.
  - destruct (fire E l s) as [[s1 o1]|] eqn:F; [|discriminate H]. destruct (runs E ls s1) as [[s2 o2]|] eqn:R; [|discriminate H]. injection H as <- <-.
    cbn [forallb] in A. apply andb_true_iff in A as (A1 & A2). pose proof (auto_down _ _ _ _ F A1). specialize (IH _ _ _ R A2). cbn [length]. lia.
Qed.
Lemma asked_step l s s' o : fire E l s = Some (s', o) -> asked s -> asked s'.
Proof.
  intros F A. destruct s as [ph sv ls sh cn ch cs]. unfold asked in *. cbn [r_cancel r_chan r_sht] in A.
  destruct l; cbn [fire r_phase r_srv r_lst r_sht r_cancel r_chan r_calls] in F;
    repeat match type of F with
    | match ?x with _ => _ end = _ => destruct x eqn:?; try discriminate F
    | (let _ := _ in _) = _ => cbv zeta in F
    end; try discriminate F; injection F as <- <-; subst; rewrite ?stage_is; cbn; auto.
  all: try (destruct A as [->|A]; cbn; auto; fail).
  all: try (left; apply orb_true_r).
  all: try (right; right; discriminate).
  all: try (destruct A as [A|[A|A]]; auto; right; left; destruct ch; discriminate).
Qed.
Lemma asked_runs ls : forall s s' o, runs E ls s = Some (s', o) -> asked s -> asked s'.
Proof.
  induction ls as [|l ls IH]; intros s s' o H A; cbn [runs] in H; [injection H as <- _; exact A|].
  destruct (fire E l s) as [[s1 o1]|] eqn:F; [|discriminate H]. destruct (runs E ls s1) as [[s2 o2]|] eqn:R; [|discriminate H]. injection H as <- <-.
  eapply IH; [exact R|]. eapply asked_step; eassumption.
Qed.
Lemma waits aw s : quiet s -> returned E aw s = false -> exists a c, aw = Some a /\ nth_error (r_calls E s) a = Some c /\
  (r_phase E s <> FNew -> (forall r, r_phase E s <> FOver r) -> c = (fst c, CWait) \/ (snd c = CNew /\ (2 <= length (r_chan E s))%nat)).
Proof.
  intros Q R. unfold returned in R. destruct aw as [a|]; [|discriminate R]. destruct (nth_error (r_calls E s) a) as [[w c]|] eqn:N; [|discriminate R].
  exists a, (w, c). split; [reflexivity|]. split; [exact N|]. intros P1 P2. cbn [fst snd]. destruct c; try discriminate R.
  - right. split; [reflexivity|]. pose proof (Q (LSend a) eq_refl) as F. cbn [fire] in F. rewrite N in F.
    assert (G : (if Nat.ltb (length (r_chan E s)) 2 then true else false) = false).
    { destruct (Nat.ltb (length (r_chan E s)) 2); [|reflexivity]. destruct (r_phase E s) as [| | |r]; [contradiction| | |elim (P2 r eq_refl)]; destruct w; discriminate F. }
    destruct (Nat.ltb_spec (length (r_chan E s)) 2); [discriminate G|assumption].
  - left. reflexivity.
  - pose proof (Q (LReturn a) eq_refl) as F. cbn [fire] in F. rewrite N in F. discriminate F.
Qed.
End Stop.

(** However a server is left to itself after that, it takes finitely many steps. *)
Theorem C108_no_endless : forall (E : env) (s : rst E), exists n, forall ls s' t,
  forallb auto ls = true -> runs E ls s = Some (s', t) -> (length ls <= n)%nat.
Proof. intros E s. exists (rank E s). intros ls s' t A H. pose proof (auto_runs E _ _ _ _ H A). lia. Qed.
(** What counts as asking: one of the three pieces of code has ended, a call without
    waiting has returned [Ok], or a call waits. *)
Record begged (E : env) (t : list (rout E)) (s : rst E) : Prop := mkBegged {
  b_srv : srvs E t <> [] -> r_cancel E s = true;
  b_lst : lsts E t <> [] -> r_cancel E s = true;
  b_sht : stops E t <> [] -> r_cancel E s = true;
  b_ret : forall a, In (XRet E a true) t -> asked E s;
  b_wait : forall a w, nth_error (r_calls E s) a = Some (w, CWait) \/ nth_error (r_calls E s) a = Some (w, CAns) -> asked E s
}.
Lemma cancel_step E l s s' o : fire E l s = Some (s', o) -> r_cancel E s = true \/ srvs E o <> [] \/ lsts E o <> [] \/ stops E o <> [] -> r_cancel E s' = true.
Proof.
  intros F A. destruct s as [ph sv ls sh cn ch cs]. cbn [r_cancel] in A.
  destruct l; cbn [fire r_phase r_srv r_lst r_sht r_cancel r_chan r_calls] in F;
    repeat match type of F with
    | match ?x with _ => _ end = _ => destruct x eqn:?; try discriminate F
    | (let _ := _ in _) = _ => cbv zeta in F
    end; try discriminate F; injection F as <- <-; subst; rewrite ?stage_is; cbn [set_phase set_srv set_lst set_sht set_calls r_cancel];
    rewrite ?orb_true_r, ?orb_false_r; try reflexivity;
    (destruct A as [A|A]; [exact A|]); exfalso; cbn in A; rewrite ?srvs_o, ?lsts_o, ?stops_o in A;
    try (destruct A as [A|[A|A]]; elim A; reflexivity).
  all: destruct A as [A|[A|A]]; elim A; [apply srvs_o|apply lsts_o|apply stops_o].
Qed.
Lemma begged_step E w t s l s' o : inv E w t s -> begged E t s -> fire E l s = Some (s', o) -> begged E (t ++ o) s'.
Proof.
  intros I [B1 B2 B3 B4 B5] F. pose proof (cancel_step E _ _ _ _ F) as C. pose proof (asked_step E _ _ _ _ F) as K.
  assert (Z : forall A (x y : list A), x ++ y <> [] -> x <> [] \/ y <> []) by (intros A [|u x] y H; [right; exact H|left; discriminate]).
  split.
  - unfold srvs. rewrite flat_map_app. intros H. apply Z in H as [H|H]; auto.
  - unfold lsts. rewrite flat_map_app. intros H. apply Z in H as [H|H]; auto.
  - unfold stops. rewrite flat_map_app. intros H. apply Z in H as [H|H]; auto.
  - intros a H. apply in_app_iff in H as [H|H]; [apply K; eauto|]. destruct (of_app l) eqn:A; [|elim (run_outs E _ _ _ _ F A _ H Logic.I)].
    assert (NF : r_phase E s = FNew -> r_calls E s = []) by (intros P; pose proof (i_end _ _ _ _ I) as Q; unfold end_ok in Q; rewrite P in Q; apply Q).
    destruct (app_cases E _ _ _ _ NF F A) as (_ & _ & _ & _ & _ & _ & G).
    destruct G as [(v & _ & _ & _ & ->)|(a0 & v & c & c' & N & _ & _ & _ & G)]; [destruct H as [H|[]]; discriminate H|].
    destruct G as [(_ & _ & _ & _ & ->)|[(_ & _ & _ & G & ->)|[(_ & _ & _ & -> & _)|[(-> & _ & _ & ->)|[(_ & _ & _ & -> & _)|(_ & _ & ->)]]]]]; try (destruct H; fail); destruct H as [H|[]]; try discriminate H.
    + right; left. rewrite G. destruct (r_chan E s); discriminate.
    + apply K. apply (B5 a0 v). auto.
  - intros a v H. destruct (of_app l) eqn:A.
    + assert (NF : r_phase E s = FNew -> r_calls E s = []) by (intros P; pose proof (i_end _ _ _ _ I) as Q; unfold end_ok in Q; rewrite P in Q; apply Q).
      destruct (app_cases E _ _ _ _ NF F A) as (_ & _ & _ & _ & _ & _ & G).
      destruct G as [(v0 & _ & C1 & _ & _)|(a0 & v0 & c & c' & N & _ & _ & C1 & G)].
      * rewrite C1, nth_new in H. destruct (Nat.eqb a (length (r_calls E s))); [destruct H as [H|H]; discriminate H|]. apply K. eapply B5. exact H.
      * rewrite C1, nth_restage, N in H. destruct (Nat.eqb a0 a); [|apply K; eapply B5; exact H].
        assert (Q : c' = CWait \/ c' = CAns) by (destruct H as [H|H]; injection H as _ ->; auto). clear H.
        destruct G as [(_ & _ & _ & G & _)|[(_ & _ & -> & _)|[(_ & -> & _)|[(_ & -> & _)|[(_ & -> & _)|(-> & _)]]]]]; try (destruct Q; discriminate).
        right; left. rewrite G. destruct (r_chan E s); discriminate.
    + destruct (run_calls E _ _ _ _ F A) as [C1|(a0 & [(S1 & S2 & S3 & _)|(v0 & S1 & S2 & ->)])].
      * rewrite C1 in H. apply K. eapply B5. exact H.
      * apply K. eapply (B5 a0). left. exact S2.
      * apply K. eapply (B5 a0). left. exact S2.
Qed.
Theorem C108_asked : forall (E : env) (w : e_world E) ls s t,
  runs E ls (start E w) = Some (s, t) ->
  (exists r, In (XSrv E r) t) \/ (exists r, In (XLst E r) t) \/ (exists ok, In (XStop E ok) t) \/ (exists a, In (XRet E a true) t) \/
  (exists a, nth_error (r_calls E s) a = Some (true, CWait)) -> asked E s.
Proof.
  intros E w ls s t H.
  assert (B : begged E t s).
  { assert (G : forall ls t0 s0 s t, inv E w t0 s0 -> begged E t0 s0 -> runs E ls s0 = Some (s, t) -> begged E (t0 ++ t) s).
    { clear. induction ls as [|l ls IH]; intros t0 s0 s t I B H; cbn [runs] in H.
      - injection H as <- <-. rewrite app_nil_r. exact B.
      - destruct (fire E l s0) as [[s1 o1]|] eqn:F; [|discriminate H]. destruct (runs E ls s1) as [[s2 o2]|] eqn:R; [|discriminate H]. injection H as <- <-.
        rewrite app_assoc. eapply IH; [|eapply begged_step; eassumption|exact R]. eapply step_inv; eassumption. }
    apply (G ls [] (start E w) s t (start_inv E w)); [|exact H]. split; try (intros X; elim X; reflexivity).
    - intros a [].
    - intros a v [X|X]; destruct a; discriminate X. }
  destruct B as [B1 B2 B3 B4 B5].
  assert (M : forall A (f : rout E -> list A) x y, In x t -> In y (f x) -> flat_map f t <> []).
  { intros A f x y X Y Z. assert (Q : In y (flat_map f t)) by (apply in_flat_map; eauto). rewrite Z in Q. elim Q. }
  intros [(r & X)|[(r & X)|[(r & X)|[(a & X)|(a & X)]]]].
  - left. apply B1. apply (M _ _ _ r X). left. reflexivity.
  - left. apply B2. apply (M _ _ _ r X). left. reflexivity.
  - left. apply B3. apply (M _ _ _ r X). left. reflexivity.
  - eapply B4. exact X.
  - eapply B5. left. exact X.
Qed.

(** Once asked to stop and come to rest, [run] has returned and said so, unless a
    handler awaits a call of [Control::shutdown] that cannot return. *)
Theorem C108_stops_partial : forall (E : env) (w : e_world E) ls s t ls' s' t',
  runs E ls (start E w) = Some (s, t) -> r_phase E s <> FNew -> asked E s ->
  runs E ls' s = Some (s', t') -> quiet E s' ->
  (exists r, r_phase E s' = FOver r /\ In (XEnd E r) (t ++ t')) \/ blocked E s'.
Proof.
  intros E w ls s t ls' s' t' H P A H' Q. pose proof (runs_inv E w _ _ _ _ _ (start_inv E w) H) as I0. cbn [app] in I0.
  pose proof (runs_inv E w _ _ _ _ _ I0 H') as I. pose proof (asked_runs E _ _ _ _ H' A) as A'.
  assert (P' : r_phase E s' <> FNew).
  { clear -P H'. revert s t' H' P. induction ls' as [|l ls IH]; intros s o H P; cbn [runs] in H; [injection H as <- _; exact P|].
    destruct (fire E l s) as [[s1 o1]|] eqn:F; [|discriminate H]. destruct (runs E ls s1) as [[s2 o2]|] eqn:R; [|discriminate H]. injection H as <- <-.
    eapply IH; [exact R|]. clear -F P. destruct s as [ph sv ls sh cn ch cs]. cbn [r_phase] in P.
    destruct l; cbn [fire r_phase r_srv r_lst r_sht r_cancel r_chan r_calls] in F;
    repeat match type of F with
    | match ?x with _ => _ end = _ => destruct x eqn:?; try discriminate F
    | (let _ := _ in _) = _ => cbv zeta in F
    end; try discriminate F; injection F as <- <-; subst; rewrite ?stage_is; cbn; first [discriminate|exact P]. }
  pose proof (i_end _ _ _ _ I) as N. unfold end_ok in N.
  destruct (r_phase E s') as [| |aw|r] eqn:F; [contradiction| | |].
  - right. assert (D : exists q, r_sht E s' = SDone q).
    { destruct (r_sht E s') as [|q|q] eqn:S; [| |eexists; reflexivity].
      - exfalso. destruct A' as [C|[C|C]]; [| |contradiction].
        + pose proof (Q LShutCancel eq_refl) as X. cbn [fire] in X. rewrite F, S, C in X. discriminate X.
        + pose proof (Q LShut eq_refl) as X. cbn [fire] in X. rewrite F, S in X. destruct (r_chan E s'); [contradiction|discriminate X].
      - pose proof (Q (LShutDone true) eq_refl) as X. cbn [fire] in X. rewrite F, S in X. discriminate X. }
    destruct D as (q & D). pose proof (i_sht _ _ _ _ I) as C. rewrite D in C. destruct C as (C & _).
    assert (V : exists rs, r_srv E s' = Some rs).
    { destruct (r_srv E s') eqn:V; [eexists; reflexivity|]. pose proof (Q LServerCancel eq_refl) as X. cbn [fire] in X. rewrite F, V, C in X. discriminate X. }
    destruct V as (rs & V). destruct (r_lst E s') as [p|e aw p|rl p] eqn:L.
    + pose proof (Q (LBegin VCancel) eq_refl) as X. cbn [fire] in X. rewrite F, L, C in X. discriminate X.
    + assert (R : returned E aw s' = false).
      { destruct (returned E aw s') eqn:R; [|reflexivity]. pose proof (Q LFinish eq_refl) as X. cbn [fire] in X. rewrite F, L, R in X. destruct (step E e p) as [o1 [p1 [[|]|x|]]]; discriminate X. }
      destruct (waits E aw s' Q R) as (a & c & -> & Nc & G). exists a, c. split; [exact Nc|]. split; [left; eauto|].
      rewrite F in G. destruct (G ltac:(discriminate) ltac:(discriminate)) as [G1|G1]; [left|right; exact G1]. destruct c as [v d]. cbn [fst] in G1. injection G1 as ->.
      destruct v; [reflexivity|]. pose proof (Q (LReturn a) eq_refl) as X. cbn [fire] in X. rewrite Nc in X. destruct (has_sender E a s') eqn:HS; [|discriminate X]. exfalso.
      unfold has_sender in HS. rewrite F, D in HS. apply orb_true_iff in HS as [HS|HS].
      * apply existsb_exists in HS as ([b|] & B1 & B2); [|discriminate B2]. apply Nat.eqb_eq in B2. subst b. destruct (i_chan _ _ _ _ I a B1) as (d & B & _). congruence.
      * destruct q as [[b|]|]; cbn in HS; try discriminate HS. apply Nat.eqb_eq in HS. subst b. destruct (i_held _ _ _ _ I a (or_intror D)) as (d & B & _). congruence.
    + exfalso. pose proof (Q LJoined eq_refl) as X. cbn [fire] in X. rewrite F, V, L, D in X. destruct q as [[b|]|]; try discriminate X. destruct (nth_error (r_calls E s') b) as [[v []]|]; discriminate X.
  - right. destruct N as (_ & _ & _ & rs & rl & p & q & J1 & J2 & J3).
    assert (R : returned E aw s' = false).
    { destruct (returned E aw s') eqn:R; [|reflexivity]. pose proof (Q (LEmitted true) eq_refl) as X. cbn [fire] in X. rewrite F, J1, J2, R in X. discriminate X. }
    destruct (waits E aw s' Q R) as (a & c & -> & Nc & G). exists a, c. split; [exact Nc|]. split; [right; exact F|].
    rewrite F in G. destruct (G ltac:(discriminate) ltac:(discriminate)) as [G1|G1]; [left|right; exact G1]. destruct c as [v d]. cbn [fst] in G1. injection G1 as ->.
    destruct v; [reflexivity|]. pose proof (Q (LReturn a) eq_refl) as X. cbn [fire] in X. rewrite Nc in X. destruct (has_sender E a s') eqn:HS; [|discriminate X]. exfalso.
    unfold has_sender in HS. rewrite F in HS.
    apply existsb_exists in HS as ([b|] & B1 & B2); [|discriminate B2]. apply Nat.eqb_eq in B2. subst b. destruct (i_chan _ _ _ _ I a B1) as (d & B & _). congruence.
  - left. exists r. split; [reflexivity|]. destruct N as (N & _). assert (X : In r (ends E (t ++ t'))) by (rewrite N; left; reflexivity).
    unfold ends in X. apply in_flat_map in X as (o & O1 & O2). destruct o; try (destruct O2; fail). destruct O2 as [<-|[]]. exact O1.
Qed.

(** When [run] has returned, every call comes to an end, unless its caller gives up. *)
Theorem C108_calls_end : forall (E : env) (w : e_world E) ls s t r a wait,
  runs E ls (start E w) = Some (s, t) -> r_phase E s = FOver r -> quiet E s -> In (XCall E a wait) t ->
  (exists ok, In (XRet E a ok) t) \/ nth_error (r_calls E s) a = Some (wait, CDrop).
Proof.
  intros E w ls s t r a wait H P Q C. pose proof (runs_inv E w _ _ _ _ _ (start_inv E w) H) as I. cbn [app] in I.
  apply (i_calls _ _ _ _ I) in C as (c & C). destruct c.
  - pose proof (Q (LSend a) eq_refl) as X. cbn [fire] in X. rewrite C, P in X. discriminate X.
  - pose proof (Q (LReturn a) eq_refl) as X. cbn [fire] in X. unfold has_sender in X. rewrite C, P in X. discriminate X.
  - pose proof (Q (LReturn a) eq_refl) as X. cbn [fire] in X. rewrite C in X. discriminate X.
  - left. exact (i_rets _ _ _ _ I a wait C).
  - right. exact C.
Qed.

(** [shutdown(true)] returns [Ok] only when the transport, the listener and the piece
    that stops the transport have ended. *)
Theorem C108_shutdown_returns : forall (E : env) (w : e_world E) ls s' t t1 a t2,
  runs E ls (start E w) = Some (s', t) -> t = t1 ++ XRet E a true :: t2 -> In (XCall E a true) t1 ->
  exists rs rl ok, srvs E t1 = [rs] /\ stops E t1 = [ok] /\ lsts E t1 = [rl].
Proof.
  intros E w ls s' t t1 a t2 H T C. destruct (cut_at E _ _ _ _ _ _ _ H T Logic.I) as (l1 & s1 & l2 & R1 & _ & _).
  pose proof (runs_inv E w _ _ _ _ _ (start_inv E w) R1) as I. cbn [app] in I.
  assert (C1 : In (XCall E a true) (t1 ++ [XRet E a true])) by (apply in_app_iff; auto). apply (i_calls _ _ _ _ I) in C1 as (c & C1).
  destruct (i_ret _ _ _ _ I a true) as (v & V & J); [apply in_app_iff; right; left; reflexivity|]. rewrite C1 in V. injection V as <- ->.
  destruct (J eq_refl eq_refl) as ((rs & rl & p & q & J1 & J2 & J3) & PH). exists rs, rl.
  pose proof (i_srv _ _ _ _ I) as S1. rewrite J1 in S1. pose proof (i_sht _ _ _ _ I) as S3. rewrite J3 in S3. destruct S3 as (_ & ok & S3). exists ok.
  unfold srvs, stops in S1, S3. rewrite flat_map_app in S1, S3. cbn [flat_map app] in S1, S3. rewrite app_nil_r in S1, S3. split; [exact S1|]. split; [exact S3|].
  pose proof (i_lst _ _ _ _ I) as L. unfold lst_ok in L. rewrite J2 in L.
  assert (L' : lsts E (t1 ++ [XRet E a true]) = [rl]) by (destruct (r_phase E s1) as [| | |[]]; try elim PH; destruct rl; apply L).
  unfold lsts in L'. rewrite flat_map_app in L'. cbn [flat_map app] in L'. rewrite app_nil_r in L'. exact L'.
Qed.

(** * Examples, and what does not hold *)
Lemma got {A B} (P : A -> B -> Prop) (x : option (A * B)) : match x with Some (a, b) => P a b | None => False end -> exists a b, x = Some (a, b) /\ P a b.
Proof. destruct x as [[a b]|]; [|intros []]. intros H. exists a, b. auto. Qed.
Definition none {A} (x : option A) : bool := match x with None => true | Some _ => false end.
Definition at_rest (E : env) (s : rst E) : bool :=
  forallb (fun l => none (fire E l s))
    ([LServerCancel; LBegin VCancel; LFinish; LShut; LShutCancel; LShutDone true; LShutDone false; LJoined; LEmitted true; LEmitted false] ++
     flat_map (fun a => [LSend a; LReturn a]) (seq 0 (length (r_calls E s)))).
Lemma at_rest_quiet E s : at_rest E s = true -> quiet E s.
Proof.
  intros H l A. unfold at_rest in H. rewrite forallb_forall in H.
  assert (G : In l ([LServerCancel; LBegin VCancel; LFinish; LShut; LShutCancel; LShutDone true; LShutDone false; LJoined; LEmitted true; LEmitted false] ++
     flat_map (fun a => [LSend a; LReturn a]) (seq 0 (length (r_calls E s)))) \/ fire E l s = None).
  { assert (N : forall a, nth_error (r_calls E s) a = None \/ In a (seq 0 (length (r_calls E s)))).
    { intros a. destruct (nth_error (r_calls E s) a) eqn:N; [right|left; reflexivity]. apply in_seq. assert (nth_error (r_calls E s) a <> None) by congruence. apply nth_error_Some in H0. lia. }
    destruct l; try discriminate A; try (left; cbn; tauto).
    - destruct e; try discriminate A. left. cbn. tauto.
    - destruct ok; left; cbn; tauto.
    - destruct ok; left; cbn; tauto.
    - destruct (N a) as [M|M]; [right; cbn [fire]; rewrite M; reflexivity|left; apply in_app_iff; right; apply in_flat_map; exists a; cbn; auto].
    - destruct (N a) as [M|M]; [right; cbn [fire]; rewrite M; reflexivity|left; apply in_app_iff; right; apply in_flat_map; exists a; cbn; auto]. }
  destruct G as [G|G]; [|exact G]. specialize (H l G). destruct (fire E l s); [discriminate H|reflexivity].
Qed.
Lemma not_rest E s : at_rest E s = false -> exists l s1 o1, auto l = true /\ fire E l s = Some (s1, o1).
Proof.
  unfold at_rest. intros R.
  assert (G : forall x, forallb (fun l => none (fire E l s)) x = false -> exists l, In l x /\ none (fire E l s) = false).
  { induction x as [|u x IH]; intros H; [discriminate H|]. cbn [forallb] in H. destruct (none (fire E u s)) eqn:U; [|exists u; split; [left; reflexivity|exact U]].
    destruct (IH H) as (l & A & B). exists l. split; [right; exact A|exact B]. }
  destruct (G _ R) as (l & Y1 & Y2). clear G R. destruct (fire E l s) as [[s1 o1]|] eqn:F; [|discriminate Y2]. exists l, s1, o1. split; [|exact F]. clear F Y2.
  apply in_app_iff in Y1 as [Y1|Y1].
  - cbn [In] in Y1. repeat (destruct Y1 as [<-|Y1]; [reflexivity|]). elim Y1.
  - apply in_flat_map in Y1 as (a & _ & Y1). destruct Y1 as [<-|[<-|[]]]; reflexivity.
Qed.
(** From every state the steps of [auto] do lead to rest. *)
Theorem C108_comes_to_rest : forall (E : env) (s : rst E), exists ls s' t,
  forallb auto ls = true /\ runs E ls s = Some (s', t) /\ quiet E s'.
Proof.
  intros E. assert (G : forall n s, (rank E s < n)%nat -> exists ls s' t, forallb auto ls = true /\ runs E ls s = Some (s', t) /\ quiet E s').
  { induction n as [|n IH]; intros s L; [lia|].
    destruct (at_rest E s) eqn:R; [exists [], s, []; split; [reflexivity|split; [reflexivity|apply at_rest_quiet; exact R]]|].
    destruct (not_rest E s R) as (l & s1 & o1 & A & F). pose proof (auto_down E _ _ _ _ F A) as D.
    destruct (IH s1 ltac:(lia)) as (ls & s' & t & H1 & H2 & H3). exists (l :: ls), s', (o1 ++ t). cbn [forallb runs]. rewrite A, F, H2. auto. }
  intros s. exact (G (S (rank E s)) s (le_n _)).
Qed.
Definition is_ret {E} (a : nat) (k : bool) (o : rout E) : bool := match o with XRet _ b j => Nat.eqb a b && Bool.eqb k j | _ => false end.

(** A client connects, then the application calls [shutdown(true)]. *)
Definition stopped : list label :=
  [LObserver true; LBegin (VConnected 4); LFinish; LCall true; LSend 0; LShut; LShutDone true; LServerCancel;
   LBegin VCancel; LFinish; LJoined; LReturn 0; LEmitted true].
Example C107_stopped_example : exists s t, runs plain_demo stopped (start plain_demo tt) = Some (s, t) /\
  ends plain_demo t = [RunOk] /\ turns plain_demo t = [VConnected 4; VCancel] /\ length (outs plain_demo t) <> 0%nat /\
  srvs plain_demo t = [None] /\ lsts plain_demo t = [None] /\ told plain_demo t = [tt] /\ heard plain_demo t = [true] /\
  existsb (is_ret 0 true) t = true.
Proof. apply got. vm_compute. repeat split; discriminate. Qed.
(** The transport fails while nothing else happens. *)
Example C107_failed_example : exists s t,
  runs plain_demo [LObserver true; LServer false; LBegin VCancel; LFinish; LShutCancel; LShutDone true; LJoined; LEmitted true] (start plain_demo tt) = Some (s, t) /\
  ends plain_demo t = [RunErr EServer] /\ srvs plain_demo t = [Some EServer] /\ told plain_demo t = [tt].
Proof. apply got. vm_compute. repeat split. Qed.
(** Asked to stop, the server of [stopped] comes to rest, and is not blocked. *)
Example C108_stops_example : exists s t s' t',
  runs plain_demo (firstn 5 stopped) (start plain_demo tt) = Some (s, t) /\ r_phase plain_demo s = FJoin /\ asked plain_demo s /\
  runs plain_demo (skipn 5 stopped) s = Some (s', t') /\ quiet plain_demo s' /\ r_phase plain_demo s' = FOver RunOk /\
  existsb (is_ret 0 true) t' = true.
Proof.
  destruct (got (fun s t => r_phase plain_demo s = FJoin /\ length (r_chan plain_demo s) = 1%nat /\
    match runs plain_demo (skipn 5 stopped) s with Some (s', t') => at_rest plain_demo s' = true /\ r_phase plain_demo s' = FOver RunOk /\ existsb (is_ret 0 true) t' = true | None => False end)
    (runs plain_demo (firstn 5 stopped) (start plain_demo tt))) as (s & t & H & P & C & Q); [vm_compute; repeat split|].
  apply got in Q as (s' & t' & R & Q1 & Q2 & Q3). exists s, t, s', t'. repeat split; auto.
  - right; left. intros X. rewrite X in C. discriminate C.
  - apply at_rest_quiet. exact Q1.
Qed.

(** The transport's own error on being stopped is lost: [shutdown()] fails and [run]
    returns [Ok]. *)
Theorem C107_stop_error_refuted : exists E w ls s t,
  runs E ls (start E w) = Some (s, t) /\ stops E t = [false] /\ ends E t = [RunOk].
Proof.
  exists plain_demo, tt, [LObserver true; LCall false; LSend 0; LShut; LShutDone false; LServerCancel; LBegin VCancel; LFinish; LJoined; LEmitted true].
  apply got. vm_compute. repeat split.
Qed.
(** The one who called [shutdown(true)] gives up waiting, and the transport fails: the
    shutdown handler is never called and the error of the transport is replaced. *)
Theorem C107_gave_up_refuted : exists E w ls s t,
  runs E ls (start E w) = Some (s, t) /\ srvs E t = [Some EServer] /\ told E t = [] /\ ends E t = [RunErr EChannel].
Proof.
  exists plain_demo, tt, [LObserver true; LCall true; LSend 0; LShut; LDrop 0; LServer false; LShutDone true; LBegin VCancel; LFinish; LJoined].
  apply got. vm_compute. repeat split.
Qed.
(** A handler that awaits its own [shutdown(true)] stops the server for good. *)
Theorem C108_own_call_refuted : exists E w ls s t,
  runs E ls (start E w) = Some (s, t) /\ asked E s /\ quiet E s /\ r_phase E s = FJoin.
Proof.
  exists plain_demo, tt, [LObserver true; LBegin (VConnected 4); LCall true; LAwait 0; LSend 0; LShut; LShutDone true; LServerCancel].
  destruct (got (fun s t => r_cancel plain_demo s = true /\ at_rest plain_demo s = true /\ r_phase plain_demo s = FJoin)
    (runs plain_demo [LObserver true; LBegin (VConnected 4); LCall true; LAwait 0; LSend 0; LShut; LShutDone true; LServerCancel] (start plain_demo tt))) as (s & t & H & A & Q & P); [vm_compute; repeat split|].
  exists s, t. split; [exact H|]. split; [left; exact A|]. split; [apply at_rest_quiet; exact Q|exact P].
Qed.
(** Of two who call [shutdown(true)] one gets an error, although the server stops. *)
Theorem C108_second_call_refuted : exists E w ls s t,
  runs E ls (start E w) = Some (s, t) /\ ends E t = [RunOk] /\ In (XCall E 1 true) t /\ In (XRet E 1 false) t.
Proof.
  exists plain_demo, tt, [LObserver true; LCall true; LCall true; LSend 0; LSend 1; LShut; LShutDone true; LServerCancel; LBegin VCancel; LFinish; LJoined; LReturn 0; LEmitted true; LReturn 1].
  apply got. vm_compute. repeat split; auto 12.
Qed.

Print Assumptions C107_reported_partial.
Print Assumptions C107_listener.
Print Assumptions C108_no_endless.
Print Assumptions C108_comes_to_rest.
Print Assumptions C108_asked.
Print Assumptions C108_stops_partial.
Print Assumptions C108_calls_end.
Print Assumptions C108_shutdown_returns.
