(** What reading a workflow does to the protocol, and which entity a reference
    names. *)
From Coq Require Import String Ascii NArith List Arith Lia Bool.
From Verif Require Import Bytes ProtoModel ProtoProofs ProtoInv ProtoRun ProtoTypes ProtoService
  WfModel WfProofs.
Import ListNotations.
Close Scope string_scope.
Open Scope list_scope.
Open Scope nat_scope.

(** the structs a configuration adds, depending on which keys are given *)
Definition service_list (self assigned : bool) : services :=
  (if self then [] else [(txt "SelfKeyRequest", [str_field "uuid" true])]) ++
  [(txt "SelfKeyResponse", [str_field "uuid" false])] ++
  (if assigned then [] else [(txt "AssignedKey", [])]) ++
  [(txt "HashRequest", [str_field "protocol" false; str_field "workflow" false]);
   (txt "HashResponse", [str_field "error" true]);
   (txt "BeaconConfirmation", [str_field "error" true]);
   (txt "ConnectConfirmationBeacon", [])].

Lemma config_close_services : forall c p c' p', config_close c p = Ok (c', p') ->
  p' = add_services p (service_list (is_some (cf_self c)) (is_some (cf_assigned c))) /\ cf_closed c' = true.
Proof.
  intros c p c' p' H. unfold config_close, close_keys in H.
  destruct (cf_self c) as [k|]; [destruct (defined p k); [|discriminate]|]; cbn [bind] in H; cbv zeta in H; cbn [bind] in H;
    (destruct (cf_assigned c) as [k2|]; [match type of H with context [defined ?x k2] => destruct (defined x k2); [|discriminate] end|]);
    cbn [bind] in H; (destruct (cf_producer c); [discriminate|]; destruct (cf_consumer c); [discriminate|]);
    cbv zeta in H; injection H as <- <-; (split; [unfold add_services, service_list; cbn [app fold_left fst snd is_some]; reflexivity | reflexivity]).
Qed.

Lemma config_next_protocol : forall c t p c' p', config_next c t p = Ok (c', p') -> cf_closed c = false ->
  (p' = p /\ cf_closed c' = false) \/
  (exists a b, p' = add_services p (service_list a b) /\ cf_closed c' = true).
Proof.
  intros c t p c' p' H C. destruct t; cbn [config_next] in H;
    try (right; destruct (config_close_services _ _ _ _ H) as [A B]; eexists _, _; split; [exact A | exact B]);
    left; unfold config_key, add_target, c_expect, c_state in H; crunch H; try discriminate;
    repeat match goal with
    | E : bind ?x _ = Ok _ |- _ => destruct x eqn:?; try discriminate; cbn [bind] in *
    end; crunch H; try discriminate; repeat match goal with E : Ok _ = Ok _ |- _ => injection E; clear E; intros; subst end;
    try (split; [reflexivity | exact C]).
Qed.

(** the protocol changes exactly when a configuration is stored *)
Definition served (p0 : store) (s : wstore) (p : store) : Prop :=
  match w_config s with
  | None => p = p0
  | Some _ => exists a b, p = add_services p0 (service_list a b)
  end.

Lemma feed_served : forall p0 e t s p o' s' p', entity_closed e = false -> served p0 s p ->
  feed e t s p = Ok (o', s', p') -> openable o' /\ served p0 s' p'.
Proof.
  intros p0 e t s p o' s' p' C S H. unfold feed in H. destruct e as [c|r|b|v]; cbn [entity_next entity_closed] in *.
  - destruct (config_next c t p) as [[c1 p1]|x|] eqn:N; try discriminate. cbn [bind entity_closed] in H.
    destruct (config_next_protocol _ _ _ _ _ N C) as [[-> Z]|(a & b & -> & Z)]; rewrite Z in H.
    + injection H as <- <- <-. split; [exact Z | exact S].
    + cbn [add_entity] in H. unfold served in S. destruct (w_config s); [discriminate|]. subst p. cbn [is_some bind] in H.
      injection H as <- <- <-. split; [exact I|]. unfold served. cbn [w_config]. eexists _, _. reflexivity.
  - destruct (request_next r t p) as [r1|x|] eqn:N; try discriminate. cbn [bind entity_closed] in H.
    destruct (rq_closed r1) eqn:Z.
    + cbn [add_entity] in H. crunch H; try discriminate. cbn [bind] in H. injection H as <- <- <-. split; [exact I | exact S].
    + injection H as <- <- <-. split; [exact Z | exact S].
  - destruct (beacons_next b t p) as [r1|x|] eqn:N; try discriminate. cbn [bind entity_closed] in H.
    destruct (bs_closed r1) eqn:Z.
    + cbn [add_entity] in H. destruct (add_beacons _ _) as [l|x|]; try discriminate. cbn [bind] in H.
      injection H as <- <- <-. split; [exact I | exact S].
    + injection H as <- <- <-. split; [exact Z | exact S].
  - destruct (event_next v t p) as [r1|x|] eqn:N; try discriminate. cbn [bind entity_closed] in H.
    destruct (ev_closed r1) eqn:Z.
    + cbn [add_entity] in H. crunch H; try discriminate. cbn [bind] in H. injection H as <- <- <-. split; [exact I | exact S].
    + injection H as <- <- <-. split; [exact Z | exact S].
Qed.

Lemma wstep_served : forall p0 o t s p o' s' p', openable o -> served p0 s p ->
  wstep o t s p = Ok (o', s', p') -> openable o' /\ served p0 s' p'.
Proof.
  intros p0 o t s p o' s' p' C S H. destruct o as [e|].
  - eapply feed_served; eauto.
  - destruct t; cbn [wstep] in H; try discriminate. destruct (open_entity w) as [e|] eqn:E; [|discriminate].
    apply open_entity_open in E. destruct (offset =? 0).
    + eapply feed_served; eauto.
    + injection H as <- <- <-. split; [exact E | exact S].
Qed.

Lemma wrun_served : forall p0 fuel content o s p s' p', openable o -> served p0 s p ->
  wrun fuel content o s p = WAccepted s' p' -> served p0 s' p'.
Proof.
  intro p0. induction fuel as [|fuel IH]; intros content o s p s' p' C G H; [discriminate|]. cbn [wrun] in H.
  destruct (wlex content [] 0 false false) as [t|e|]; try discriminate.
  assert (K : t = WEnd \/ t <> WEnd) by (destruct t; (left; reflexivity) || (right; discriminate)).
  destruct K as [->|K].
  { destruct (validate (w_requests s) (w_beacons s)) as [u|e|] eqn:V; try discriminate. injection H as <- <-. exact G. }
  assert (H' : match wstep o t s p with
              | Ok (o, s, p) =>
                match slice content (woffset t) with
                | Some content => wrun fuel content o s p
                | None => WPanicked
                end
              | _ => WRejected
              end = WAccepted s' p') by (destruct t; congruence).
  clear H. destruct (wstep o t s p) as [[[o1 s1] p1]|e|] eqn:S; try discriminate.
  destruct (slice content (woffset t)) as [rest|]; [|discriminate].
  destruct (wstep_served _ _ _ _ _ _ _ _ C G S) as (A & B). exact (IH _ _ _ _ _ _ A B H').
Qed.

(** ** A reference determines its entity's place, and the other way round *)

(** group names from scope [a] down to scope [b], outermost first *)
Inductive down (s : store) (a : nat) : list text -> nat -> Prop :=
| DN_here : down s a [] a
| DN_in : forall path b gid name, down s a path b -> has_group s gid b name -> down s a (path ++ [name]) gid.

Lemma down_cons : forall s a gid name path b, has_group s gid a name -> down s gid path b -> down s a (name :: path) b.
Proof.
  intros s a gid name path b G D. induction D as [|path b g n D IH H].
  - apply (DN_in s a [] a gid name); [constructor | exact G].
  - change (name :: path ++ [n]) with ((name :: path) ++ [n]). eapply DN_in; eassumption.
Qed.

(** entity [id] has this name in this scope *)
Definition placed (s : store) (id scope : nat) (name : text) : Prop :=
  (exists e, In e (enums s) /\ e_id e = id /\ e_parent e = scope /\ e_name e = name) \/
  (exists x, In x (structs s) /\ s_id x = id /\ s_parent x = scope /\ s_name x = name).

Lemma names_place : forall s a path id, names_from s a path id ->
  exists pre scope name, path = pre ++ [name] /\ down s a pre scope /\ placed s id scope name.
Proof.
  intros s a path id H. induction H as [e E|x X|gid parent nm p id G H (pre & scope & name & -> & D & P)].
  - exists [], (e_parent e), (e_name e). split; [reflexivity|]. split; [constructor | left; exists e; auto].
  - exists [], (s_parent x), (s_name x). split; [reflexivity|]. split; [constructor | right; exists x; auto].
  - exists (nm :: pre), scope, name. split; [reflexivity|]. split; [eapply down_cons; eassumption | exact P].
Qed.

Lemma count_split : forall (A : Type) (f : A -> nat) l x y, In x l -> In y l -> f x = f y -> x <> y ->
  2 <= count_occ Nat.eq_dec (map f l) (f x).
Proof.
  induction l as [|z l IH]; intros x y X Y E N; [destruct X|]. cbn [map count_occ].
  destruct X as [->|X], Y as [->|Y].
  - congruence.
  - destruct (Nat.eq_dec (f x) (f x)) as [_|F]; [|congruence].
    assert (0 < count_occ Nat.eq_dec (map f l) (f x)); [|lia]. rewrite E.
    apply (count_occ_In Nat.eq_dec), in_map, Y.
  - destruct (Nat.eq_dec (f y) (f x)) as [_|F]; [|congruence].
    assert (0 < count_occ Nat.eq_dec (map f l) (f x)); [|lia]. apply (count_occ_In Nat.eq_dec), in_map, X.
  - specialize (IH x y X Y E N). destruct (Nat.eq_dec (f z) (f x)); lia.
Qed.

Section Uniq.
  Variable s : store.
  Hypothesis U : uniq s.

  Lemma cnt_parts : forall i,
    count_occ Nat.eq_dec (map s_id (structs s)) i + count_occ Nat.eq_dec (map e_id (enums s)) i +
    count_occ Nat.eq_dec (map g_id (all_groups s)) i <= 1.
  Proof.
    intro i. destruct U as [U1 _]. specialize (U1 i). unfold cnt, all_ids, all_structs, all_enums in U1.
    rewrite ?map_app, !count_occ_app in U1. rewrite ?count_occ_app in U1. lia.
  Qed.

  Lemma group_parent : forall gid p n p' n', has_group s gid p n -> has_group s gid p' n' -> p = p' /\ n = n'.
  Proof.
    intros gid p n p' n' A B. unfold has_group in *. apply in_map_iff in A as (g & G1 & G2). apply in_map_iff in B as (h & H1 & H2).
    assert (EQ : g_id g = gid /\ g_parent g = p /\ g_name g = n) by (unfold gkey in G1; repeat split; congruence).
    assert (EH : g_id h = gid /\ g_parent h = p' /\ g_name h = n') by (unfold gkey in H1; repeat split; congruence).
    destruct EQ as (E1 & E2 & E3), EH as (F1 & F2 & F3).
    destruct (Nat.eq_dec p p') as [PP|PP], (list_eq_dec ascii_dec n n') as [NN|NN]; auto; exfalso;
      (assert (2 <= count_occ Nat.eq_dec (map g_id (all_groups s)) (g_id g));
       [apply (count_split _ _ _ g h); congruence | pose proof (cnt_parts (g_id g)); lia]).
  Qed.

  Lemma group_nonzero : forall gid p n, has_group s gid p n -> gid <> 0.
  Proof.
    intros gid p n A ->. unfold has_group in A. apply in_map_iff in A as (g & G1 & G2).
    destruct U as [_ U2]. specialize (U2 0). assert (0 < cnt s 0); [|lia].
    unfold cnt. apply (count_occ_In Nat.eq_dec). unfold all_ids. rewrite !in_app_iff. do 4 right.
    apply in_map_iff. exists g. split; [unfold gkey in G1; congruence | exact G2].
  Qed.

  Lemma down_path : forall b p q, down s 0 p b -> down s 0 q b -> p = q.
  Proof.
    intros b p q D. revert q. induction D as [|path b g n D IH G]; intros q E.
    - inversion E as [|path b g n D' G]; subst; [reflexivity|]. elim (group_nonzero _ _ _ G). reflexivity.
    - inversion E as [|path' b' g' n' D' G']; subst.
      + elim (group_nonzero _ _ _ G). reflexivity.
      + destruct (group_parent _ _ _ _ _ G G') as [-> ->]. rewrite (IH _ D'). reflexivity.
  Qed.

  Lemma placed_once : forall id a n b m, placed s id a n -> placed s id b m -> a = b /\ n = m.
  Proof.
    intros id a n b m P Q.
    assert (K : forall (A : Type) (f : A -> nat) (g : A -> nat) (h : A -> text) l x y,
              (forall i, count_occ Nat.eq_dec (map f l) i <= 1) -> In x l -> In y l -> f x = f y ->
              g x = g y /\ h x = h y).
    { intros A f g h l x y C X Y E. destruct (Nat.eq_dec (g x) (g y)) as [G|G], (list_eq_dec ascii_dec (h x) (h y)) as [H|H]; auto; exfalso;
        (assert (2 <= count_occ Nat.eq_dec (map f l) (f x)); [apply (count_split _ _ _ x y); congruence | specialize (C (f x)); lia]). }
    assert (C1 : forall i, count_occ Nat.eq_dec (map e_id (enums s)) i <= 1) by (intro i; pose proof (cnt_parts i); lia).
    assert (C2 : forall i, count_occ Nat.eq_dec (map s_id (structs s)) i <= 1) by (intro i; pose proof (cnt_parts i); lia).
    assert (C3 : forall e x, In e (enums s) -> In x (structs s) -> e_id e <> s_id x).
    { intros e x E X Z. pose proof (cnt_parts (e_id e)) as C.
      assert (0 < count_occ Nat.eq_dec (map e_id (enums s)) (e_id e)) by (apply (count_occ_In Nat.eq_dec), in_map, E).
      assert (0 < count_occ Nat.eq_dec (map s_id (structs s)) (e_id e)) by (rewrite Z; apply (count_occ_In Nat.eq_dec), in_map, X).
      lia. }
    destruct P as [(e & P1 & P2 & P3 & P4)|(e & P1 & P2 & P3 & P4)], Q as [(x & Q1 & Q2 & Q3 & Q4)|(x & Q1 & Q2 & Q3 & Q4)]; subst.
    - apply (K _ e_id e_parent e_name (enums s)); auto.
    - elim (C3 e x P1 Q1). auto.
    - elim (C3 x e Q1 P1). auto.
    - apply (K _ s_id s_parent s_name (structs s)); auto.
  Qed.

  Lemma names_path : forall p q id, names_from s 0 p id -> names_from s 0 q id -> p = q.
  Proof.
    intros p q id A B. destruct (names_place _ _ _ _ A) as (pre & a & n & -> & D & P).
    destruct (names_place _ _ _ _ B) as (pre' & b & m & -> & E & Q).
    destruct (placed_once _ _ _ _ _ P Q) as [-> ->]. rewrite (down_path _ _ _ D E). reflexivity.
  Qed.
End Uniq.

(** [str::split('.')] loses nothing *)
Fixpoint undot (ps : list text) : text :=
  match ps with
  | [] => []
  | [p] => p
  | p :: ps => p ++ "."%char :: undot ps
  end.
Lemma split_undot : forall t, undot (split_dots t) = t /\ split_dots t <> [].
Proof.
  induction t as [|c t [IH N]]; [split; [reflexivity | discriminate]|]. cbn [split_dots].
  destruct (Ascii.eqb c ".") eqn:E.
  - apply Ascii.eqb_eq in E. subst c. split; [|discriminate].
    cbn [undot]. destruct (split_dots t) as [|p ps]; [congruence|]. cbn [app]. f_equal. exact IH.
  - destruct (split_dots t) as [|p ps]; [congruence|]. split; [|discriminate].
    cbn [undot] in *. destruct ps; cbn [app]; f_equal; exact IH.
Qed.
Lemma split_inj : forall a b, split_dots a = split_dots b -> a = b.
Proof. intros a b E. rewrite <- (proj1 (split_undot a)), <- (proj1 (split_undot b)), E. reflexivity. Qed.
