(** Proofs about the workflow parser: progress of the lexer, invariants of the
    store, references. *)
From Coq Require Import String Ascii NArith List Arith Lia Bool.
From Verif Require Import Bytes ProtoModel ProtoProofs ProtoInv ProtoRun ProtoTypes ProtoService WfModel.
Import ListNotations.
Close Scope string_scope.
Open Scope list_scope.
Open Scope nat_scope.

(** ** Progress *)

Definition ender (c : ascii) : bool := is_ws c || is_wbreak c.

Lemma symbol_offset : forall c n, woffset (symbol c n) = n.
Proof. intros. unfold symbol. repeat (match goal with |- context [if ?b then _ else _] => destruct b end); reflexivity. Qed.

Lemma symbol_not_end : forall c n, symbol c n <> WEnd.
Proof. intros. unfold symbol. repeat (match goal with |- context [if ?b then _ else _] => destruct b end); discriminate. Qed.

(** a token ends behind the start of the text, unless the text is the last
    character of a word *)
Lemma wlex_progress : forall content str pass lim com t,
  length str <= pass -> (com = true -> length str < pass) ->
  (content = [] -> str = [] \/ com = true \/ 2 <= length str) ->
  (content <> [] -> ender (last content lf) = true) ->
  wlex content str pass lim com = Ok t -> t <> WEnd -> 1 <= woffset t.
Proof.
  induction content as [|c content IH]; intros str pass lim com t P1 P2 P3 P4 E N.
  - cbn [wlex] in E. destruct str as [|x str]; injection E as <-; [congruence|]. cbn [woffset].
    destruct (P3 eq_refl) as [A | [A | A]]; [discriminate| |]; try specialize (P2 A); cbn [length] in *; lia.
  - cbn [wlex] in E.
    assert (P4' : content <> [] -> ender (last content lf) = true).
    { intro K. specialize (P4 ltac:(discriminate)). cbn [last] in P4. destruct content; [congruence | exact P4]. }
    destruct (com && negb (Ascii.eqb c lf)) eqn:E1.
    { apply andb_true_iff in E1 as [-> E1]. specialize (P2 eq_refl).
      refine (IH str _ lim true t _ _ _ P4' E N); [destruct (is_cont c); lia | destruct (is_cont c); lia | auto]. }
    destruct (Ascii.eqb c "#") eqn:E2.
    { refine (IH str _ lim true t _ _ _ P4' E N); [lia | lia | auto]. }
    cbv zeta in E.
    destruct (negb (is_ascii c)); [discriminate|].
    destruct (is_digit c && _); [discriminate|].
    destruct (is_ws c && match str with [] => true | _ => false end) eqn:E3.
    { apply andb_true_iff in E3 as [E3 E4]. destruct str; [|discriminate].
      refine (IH [] _ lim false t _ _ _ P4' E N); cbn [length]; [lia | discriminate | auto]. }
    destruct (is_wbreak c && match str with [] => true | _ => false end) eqn:E4.
    { injection E as <-. rewrite symbol_offset. lia. }
    destruct (is_ws c || is_wbreak c) eqn:E5.
    { destruct str as [|x str].
      { rewrite ?andb_true_r in *. rewrite E3, E4 in E5. discriminate. }
      destruct (lim && _); [discriminate|]. injection E as <-. cbn [woffset length] in *. lia. }
    destruct (_ && negb (lim || _ || _)); [discriminate|].
    refine (IH (str ++ [c]) _ _ false t _ _ _ P4' E N); rewrite ?app_length; cbn [length]; [lia | discriminate |].
    intros ->. specialize (P4 ltac:(discriminate)). cbn [last] in P4. unfold ender in P4. congruence.
Qed.

Lemma slice_shorter : forall content n rest, 1 <= n -> content <> [] -> slice content n = Some rest ->
  length rest < length content.
Proof.
  intros content n rest N C E. unfold slice in E.
  assert (rest = skipn n content) as ->.
  { destruct (skipn n content) as [|c r]; [congruence|]. destruct (is_cont c); congruence. }
  apply skipn_shorter; [lia | exact C].
Qed.

Lemma last_skipn : forall (A : Type) n (l : list A) d, skipn n l <> [] -> last (skipn n l) d = last l d.
Proof.
  induction n as [|n IH]; intros l d H; [reflexivity|]. destruct l as [|x l]; [reflexivity|].
  cbn [skipn] in *. rewrite IH by exact H. destruct l; [|reflexivity]. rewrite skipn_nil in H. congruence.
Qed.

Definition ends_ok (t : text) : Prop := t <> [] -> ender (last t lf) = true.

Lemma slice_ends : forall content n rest, ends_ok content -> slice content n = Some rest -> ends_ok rest.
Proof.
  intros content n rest H E K. unfold slice in E.
  assert (R : rest = skipn n content).
  { destruct (skipn n content) as [|c r]; [congruence|]. destruct (is_cont c); congruence. }
  subst rest. rewrite last_skipn by exact K. apply H. intros ->. rewrite skipn_nil in K. congruence.
Qed.

Lemma wrun_terminates : forall fuel content o s p,
  length content < fuel -> ends_ok content -> wrun fuel content o s p <> WRunning.
Proof.
  induction fuel as [|fuel IH]; intros content o s p L H; [lia|]. cbn [wrun].
  destruct (wlex content [] 0 false false) as [t|e|] eqn:E; try discriminate.
  assert (K : t = WEnd \/ t <> WEnd) by (destruct t; (left; reflexivity) || (right; discriminate)).
  destruct K as [->|K].
  { destruct (validate _ _); discriminate. }
  assert (G : match wstep o t s p with
              | Ok (o, s, p) =>
                match slice content (woffset t) with
                | Some content => wrun fuel content o s p
                | None => WPanicked
                end
              | _ => WRejected
              end <> WRunning).
  { destruct (wstep o t s p) as [[[o' s'] p']|e|]; try discriminate.
    destruct (slice content (woffset t)) as [rest|] eqn:S; [|discriminate].
    apply IH; [|exact (slice_ends _ _ _ H S)].
    assert (C : content <> []) by (intros ->; cbn in E; congruence).
    assert (O : 1 <= woffset t).
    { refine (wlex_progress content [] 0 false false t _ _ _ H E K); cbn [length]; [lia | discriminate | auto]. }
    pose proof (slice_shorter _ _ _ O C S). lia. }
  destruct t; try exact G. congruence.
Qed.

Lemma wrun_more_fuel : forall fuel content o s p k,
  wrun fuel content o s p <> WRunning -> wrun (fuel + k) content o s p = wrun fuel content o s p.
Proof.
  induction fuel as [|fuel IH]; intros content o s p k H; [elim H; reflexivity|].
  cbn [wrun Nat.add] in *. destruct (wlex content [] 0 false false) as [t|e|]; try reflexivity.
  destruct t; try reflexivity;
    (destruct (wstep o _ s p) as [[[o' s'] p']|e|]; try reflexivity;
     destruct (slice content _) as [rest|]; try reflexivity; apply IH; exact H).
Qed.

(** the last letter of a word at the end of the text is read again and again *)
Lemma wrun_stuck : forall fuel c q s p r,
  is_alnum c = true -> is_digit c = false ->
  wrun fuel [c] (Some (ORequest (mkRequest None None [] [] r (RRequest q) false))) s p = WRunning.
Proof.
  induction fuel as [|fuel IH]; intros c q s p r A D; [reflexivity|].
  assert (L : wlex [c] [] 0 false false = Ok (WWord [c] 0) /\ is_cont c = false).
  { revert A D. clear. destruct c as [[] [] [] [] [] [] [] []]; vm_compute; intros; split; congruence. }
  destruct L as [L C]. cbn [wrun]. rewrite L. cbn [wstep].
  unfold feed, entity_next, request_next. cbn [rq_pend bind entity_closed rq_closed r_state woffset
    rq_ref rq_err rq_actions rq_bcs]. unfold slice. cbn [skipn]. rewrite C. apply IH; assumption.
Qed.

(** ** The protocol while a workflow is read *)

(** nothing disappears, and what a path names stays the same *)
Definition grows (p p' : store) : Prop :=
  forall q r, find_by_path p 0 q = Some r -> find_by_path p' 0 q = Some r.

Lemma grows_refl : forall p, grows p p.
Proof. intros p q r H. exact H. Qed.
Lemma grows_trans : forall a b c, grows a b -> grows b c -> grows a c.
Proof. intros a b c A B q r H. apply B, A, H. Qed.

Lemma find_app : forall (A : Type) (f : A -> bool) l m, find f (l ++ m) =
  match find f l with Some x => Some x | None => find f m end.
Proof. induction l as [|x l IH]; intro m; cbn [find app]; [reflexivity|]. destruct (f x); auto. Qed.

(** groups are compared by id, parent and name only *)
Lemma find_gkey : forall (f : nat * nat * text -> bool) l l', map gkey l = map gkey l' ->
  match find (fun g => f (gkey g)) l, find (fun g => f (gkey g)) l' with
  | Some a, Some b => gkey a = gkey b
  | None, None => True
  | _, _ => False
  end.
Proof.
  intro f. induction l as [|a l IH]; intros [|b l'] E; try discriminate; [exact I|].
  cbn [map] in E. assert (E1 : gkey a = gkey b) by congruence. assert (E2 : map gkey l = map gkey l') by congruence.
  cbn [find]. rewrite E1. destruct (f (gkey b)); [exact E1|]. apply IH. exact E2.
Qed.

Lemma find_path_grow : forall p p',
  (exists xs, structs p' = structs p ++ xs) -> enums p' = enums p ->
  (exists gs, map gkey (groups p') = map gkey (groups p ++ gs)) ->
  forall q a r, find_by_path p a q = Some r -> find_by_path p' a q = Some r.
Proof.
  intros p p' (xs & E1) E2 (gs & E3) q. induction q as [|t q IH]; intros a r H; [discriminate|].
  cbn [find_by_path] in *. destruct q as [|t' q].
  - rewrite E2. destruct (find _ (enums p)); [exact H|]. rewrite E1, find_app.
    destruct (find (fun x => teqb (s_name x) t && (s_parent x =? a)) (structs p)); [exact H | discriminate].
  - destruct (find (fun g => teqb (g_name g) t && (g_parent g =? a)) (groups p)) as [g|] eqn:F; [|discriminate].
    pose proof (find_gkey (fun k => teqb (snd k) t && (snd (fst k) =? a)) _ _ E3) as K.
    cbn [gkey fst snd] in K. rewrite find_app, F in K.
    destruct (find _ (groups p')) as [g'|]; [|destruct K].
    injection K as K1 _ _. rewrite K1.
    destruct (find_by_path p (g_id g) (t' :: q)) as [[gs' id]|] eqn:R; [|discriminate].
    rewrite (IH _ _ R). exact H.
Qed.

Lemma service_shape : forall p name fs, exists x gs,
  structs (add_service_struct p name fs) = structs p ++ [x] /\
  enums (add_service_struct p name fs) = enums p /\
  map gkey (groups (add_service_struct p name fs)) = map gkey (groups p ++ gs) /\
  s_name x = name /\
  (exists g, find is_service (groups (add_service_struct p name fs)) = Some g /\ g_id g = s_parent x).
Proof.
  intros p name fs. rewrite service_eq. destruct (with_group_found p) as (g & G). rewrite G.
  assert (W : structs (with_group p) = structs p /\ enums (with_group p) = enums p /\
              exists gs, groups (with_group p) = groups p ++ gs).
  { unfold with_group. destruct (existsb is_service (groups p)).
    - repeat split. exists []. rewrite app_nil_r. reflexivity.
    - repeat split. eexists. reflexivity. }
  destruct W as (W1 & W2 & gs & W3). unfold with_struct.
  cbn [set_structs set_groups set_seq structs enums groups]. rewrite W1, W2, upd_keys.
  eexists. exists gs. split; [reflexivity|]. split; [reflexivity|]. split; [rewrite W3; reflexivity|].
  split; [reflexivity|]. cbn [s_parent].
  pose proof (find_gkey (fun k => teqb (snd k) service_group && (snd (fst k) =? 0)) _ _
                (upd_keys (S (seq (with_group p))) (groups (with_group p)))) as K.
  cbn [gkey fst snd] in K. unfold is_service in *. rewrite G in K.
  destruct (find _ (upd _ _)) as [g'|]; [|destruct K]. exists g'. split; [reflexivity|]. unfold gkey in K. congruence.
Qed.

Lemma service_grows : forall p name fs, grows p (add_service_struct p name fs).
Proof.
  intros p name fs q r H. destruct (service_shape p name fs) as (x & gs & A & B & C & _).
  eapply find_path_grow; [exists [x]; exact A | exact B | exists gs; exact C | exact H].
Qed.

Lemma defined_grows : forall p p' r, grows p p' -> defined p r = true -> defined p' r = true.
Proof.
  intros p p' r G H. unfold defined in *. destruct (find_by_path p 0 (split_dots r)) as [x|] eqn:E; [|discriminate].
  rewrite (G _ _ E). reflexivity.
Qed.

Definition dotless (t : text) : Prop := ~ In "."%char t.

Lemma split_dotless : forall t, dotless t -> split_dots t = [t].
Proof.
  induction t as [|c t IH]; intro H; [reflexivity|]. cbn [split_dots].
  destruct (Ascii.eqb c ".") eqn:E; [apply Ascii.eqb_eq in E; subst; elim H; left; reflexivity|].
  rewrite IH; [reflexivity|]. intro K. apply H. right. exact K.
Qed.

Lemma split_cons : forall a t, dotless a -> split_dots (a ++ "."%char :: t) = a :: split_dots t.
Proof.
  induction a as [|c a IH]; intros t H; [reflexivity|]. cbn [app split_dots].
  destruct (Ascii.eqb c ".") eqn:E; [apply Ascii.eqb_eq in E; subst; elim H; left; reflexivity|].
  rewrite IH; [reflexivity|]. intro K. apply H. right. exact K.
Qed.

Lemma service_defined : forall p name fs, dotless (txt name) ->
  defined (add_service_struct p (txt name) fs) (service name) = true.
Proof.
  intros p name fs D. unfold defined, service.
  rewrite split_cons by (vm_compute; intuition discriminate). rewrite (split_dotless (txt name) D).
  destruct (service_shape p (txt name) fs) as (x & gs & A & B & C & N & g & G & P).
  cbn [find_by_path]. change (fun g0 : pgroup => teqb (g_name g0) service_group && (g_parent g0 =? 0)) with is_service.
  rewrite G. rewrite A, B.
  destruct (find _ (enums p)); [reflexivity|]. rewrite find_app.
  destruct (find (fun x0 => teqb (s_name x0) (txt name) && (s_parent x0 =? g_id g)) (structs p)); [reflexivity|].
  cbn [find]. rewrite N, P, teqb_refl, Nat.eqb_refl. reflexivity.
Qed.

(** ** What a finished entity refers to *)

Definition isdef (p : store) (r : text) : Prop := defined p r = true.
Definition bc_ok (p : store) (b : wbroadcast) : Prop := isdef p (bc_ref b).

Definition action_ok (p : store) (several : Prop) (a : waction) : Prop :=
  (several -> ac_concl a <> None) /\
  (exists r, ac_resp a = Some r /\ isdef p r) /\
  Forall (bc_ok p) (ac_bcs a).

Definition request_ok (p : store) (r : wrequest) : Prop :=
  (exists q, rq_ref r = Some q /\ isdef p q) /\
  match rq_err r with Some e => isdef p e | None => rq_actions r = [] end /\
  Forall (isdef p) (rq_bcs r) /\
  Forall (action_ok p (length (rq_actions r) <> 1)) (rq_actions r).

Definition event_ok (p : store) (e : wevent) : Prop :=
  (exists q, ev_ref e = Some q /\ (default_event q = true \/ isdef p q)) /\
  ev_list e <> [] /\ Forall (bc_ok p) (ev_list e).

Definition config_ok (p : store) (c : wconfig) : Prop :=
  (exists k, cf_self c = Some k /\ isdef p k) /\ (exists k, cf_assigned c = Some k /\ isdef p k) /\
  cf_producer c <> [] /\ cf_consumer c <> [].

Definition entity_ok (p : store) (e : entity_open) : Prop :=
  match e with
  | OConfig c => config_ok p c
  | ORequest r => request_ok p r
  | OBeacons b => bs_list b <> [] /\ Forall (bc_ok p) (bs_list b)
  | OEvent e => event_ok p e
  end.

Lemma forallb_Forall : forall (A : Type) (f : A -> bool) l, forallb f l = true -> Forall (fun x => f x = true) l.
Proof. intros A f l H. rewrite forallb_forall in H. apply Forall_forall. exact H. Qed.

Lemma nonempty_true : forall (A : Type) (l : list A), nonempty l = true -> l <> [].
Proof. intros A [|]; [discriminate | discriminate]. Qed.
Lemma nonempty_false : forall (A : Type) (l : list A), nonempty l = false -> l = [].
Proof. intros A [|]; [reflexivity | discriminate]. Qed.

Lemma request_close_ok : forall r p r', request_close r p = Ok r' -> rq_closed r' = true /\ request_ok p r'.
Proof.
  intros r p r' H. unfold request_close in H. destruct (rq_ref r) as [q|] eqn:Q; [|discriminate].
  destruct (defined p q) eqn:D; [|discriminate]. cbn [negb] in H.
  destruct (match rq_err r with Some e => negb (defined p e) | None => nonempty (rq_actions r) end) eqn:E; [discriminate|].
  destruct (forallb (defined p) (rq_bcs r)) eqn:B; [|discriminate]. cbn [negb] in H.
  destruct (forallb (action_defined p (length (rq_actions r) =? 1)) (rq_actions r)) eqn:A; [|discriminate].
  cbn [negb] in H. injection H as <-. split; [reflexivity|].
  unfold request_ok. cbn [rq_ref rq_err rq_actions rq_bcs].
  split; [exists q; auto|]. split.
  { destruct (rq_err r); [apply negb_false_iff in E; exact E | apply nonempty_false; exact E]. }
  split; [apply forallb_Forall; exact B|].
  eapply Forall_impl; [|apply forallb_Forall; exact A]. intros a K. unfold action_defined in K.
  apply andb_true_iff in K as [K K3]. apply andb_true_iff in K as [K1 K2]. split; [|split].
  - intro N. apply Nat.eqb_neq in N. rewrite N, orb_false_r in K1. destruct (ac_concl a); [discriminate | discriminate].
  - destruct (ac_resp a) as [x|]; [exists x; auto | discriminate].
  - apply forallb_Forall. exact K3.
Qed.

Lemma event_close_ok : forall e p e', event_close e p = Ok e' -> ev_closed e' = true /\ event_ok p e'.
Proof.
  intros e p e' H. unfold event_close in H. destruct (ev_ref e) as [q|] eqn:Q; [|discriminate].
  destruct (negb (default_event q) && negb (defined p q)) eqn:D; [discriminate|].
  destruct (nonempty (ev_list e)) eqn:N; [|discriminate]. cbn [negb] in H.
  destruct (forallb (fun x => defined p (bc_ref x)) (ev_list e)) eqn:B; [|discriminate]. injection H as <-.
  split; [reflexivity|]. split; [|split]; cbn [ev_ref ev_list].
  - exists q. split; [exact eq_refl|]. unfold isdef. destruct (default_event q), (defined p q); auto; discriminate.
  - apply nonempty_true. exact N.
  - apply forallb_Forall in B. exact B.
Qed.

Lemma config_close_ok : forall c p c' p', config_close c p = Ok (c', p') ->
  cf_closed c' = true /\ grows p p' /\ config_ok p' c'.
Proof.
  intros c p c' p' H. unfold config_close in H.
  destruct (close_keys c p) as [[[k k2] p1]|e|] eqn:K; try discriminate. cbn [bind] in H.
  assert (KO : grows p p1 /\ isdef p1 k /\ isdef p1 k2).
  { unfold close_keys in K.
    match type of K with bind ?x _ = _ => destruct x as [[k0 p0]|e|] eqn:K1; try discriminate end. cbn [bind] in K.
    assert (K0 : grows p p0 /\ isdef p0 k0).
    { destruct (cf_self c) as [q|].
      - destruct (defined p q) eqn:D; [|discriminate]. injection K1 as <- <-.
        split; [apply service_grows|]. eapply defined_grows; [apply service_grows | exact D].
      - cbv zeta in K1. injection K1 as <- <-. split; [eapply grows_trans; apply service_grows|].
        eapply defined_grows; [apply service_grows|]. apply (service_defined p "SelfKeyRequest"). vm_compute. intuition discriminate. }
    destruct K0 as [G0 D0]. destruct (cf_assigned c) as [q|].
    - destruct (defined p0 q) eqn:D; [|discriminate]. injection K as <- <- <-. auto.
    - injection K as <- <- <-. split; [eapply grows_trans; [exact G0 | apply service_grows]|].
      split; [eapply defined_grows; [apply service_grows | exact D0]|].
      apply (service_defined p0 "AssignedKey"). vm_compute. intuition discriminate. }
  destruct KO as (G & D1 & D2).
  destruct (cf_producer c) as [|x xs] eqn:P1; [discriminate|]. destruct (cf_consumer c) as [|y ys] eqn:P2; [discriminate|].
  cbv zeta in H. injection H as <- <-. split; [reflexivity|].
  assert (G' : grows p1 (add_service_struct (add_service_struct (add_service_struct (add_service_struct p1
     (txt "HashRequest") [str_field "protocol" false; str_field "workflow" false]) (txt "HashResponse") [str_field "error" true])
     (txt "BeaconConfirmation") [str_field "error" true]) (txt "ConnectConfirmationBeacon") [])).
  { eapply grows_trans; [apply service_grows|]. eapply grows_trans; [apply service_grows|].
    eapply grows_trans; apply service_grows. }
  split; [eapply grows_trans; eauto|]. split; [|split]; cbn [cf_self cf_assigned cf_producer cf_consumer].
  - exists k. split; [reflexivity|]. eapply defined_grows; [exact G' | exact D1].
  - exists k2. split; [reflexivity|]. eapply defined_grows; [exact G' | exact D2].
  - split; discriminate.
Qed.

Ltac crunch H :=
  repeat match type of H with
  | Err _ = Ok _ => discriminate H
  | Panic = Ok _ => discriminate H
  | context [if ?b then _ else _] => destruct b eqn:?
  | context [match ?x with _ => _ end] => destruct x eqn:?
  end.

Lemma entity_next_ok : forall e t p e' p', entity_closed e = false -> entity_next e t p = Ok (e', p') ->
  grows p p' /\ (entity_closed e' = true -> entity_ok p' e').
Proof.
  intros e t p e' p' C H. destruct e as [c|r|b|v]; cbn [entity_next entity_closed] in *.
  - destruct (config_next c t p) as [[c1 p1]|x|] eqn:N; try discriminate. cbn [bind] in H. injection H as <- <-.
    cbn [entity_closed entity_ok].
    destruct t; cbn [config_next] in N; try discriminate;
      try (apply config_close_ok in N as (A & B & D); auto; fail);
      unfold bind, config_key, add_target in N; crunch N; injection N as <- <-; (split; [apply grows_refl|]);
      cbn [c_expect c_state cf_closed]; try congruence;
      repeat (match goal with E : (if _ then _ else _) = Ok _ |- _ => crunch E; injection E as <- end);
      cbn [c_expect c_state cf_closed]; congruence.
  - destruct (request_next r t p) as [r1|x|] eqn:N; try discriminate. cbn [bind] in H. injection H as <- <-.
    split; [apply grows_refl|]. cbn [entity_closed entity_ok].
    destruct t; cbn [request_next] in N; crunch N;
      try (apply request_close_ok in N as [_ N]; intros _; exact N);
      injection N as <-; cbn [r_state r_action rq_closed]; congruence.
  - destruct (beacons_next b t p) as [b1|x|] eqn:N; try discriminate. cbn [bind] in H. injection H as <- <-.
    split; [apply grows_refl|]. cbn [entity_closed entity_ok].
    destruct t; cbn [beacons_next] in N; crunch N;
      try (injection N as <-; cbn [bs_closed]; congruence).
    unfold beacons_close in N. destruct (nonempty (bs_list b)) eqn:E; [|discriminate]. cbn [negb] in N.
    destruct (forallb _ (bs_list b)) eqn:F; [|discriminate]. injection N as <-. cbn [bs_list]. intros _.
    split; [apply nonempty_true; exact E | apply forallb_Forall in F; exact F].
  - destruct (event_next v t p) as [v1|x|] eqn:N; try discriminate. cbn [bind] in H. injection H as <- <-.
    split; [apply grows_refl|]. cbn [entity_closed entity_ok].
    destruct t; cbn [event_next] in N; crunch N;
      try (apply event_close_ok in N as [_ N]; intros _; exact N);
      injection N as <-; cbn [ev_closed]; congruence.
Qed.

(** ** The store *)

Record wgood (s : wstore) (p : store) : Prop := mkWgood {
  G_req : Forall (request_ok p) (w_requests s);
  G_ev : Forall (event_ok p) (w_events s);
  G_bc : Forall (bc_ok p) (w_beacons s);
  G_cf : forall c, w_config s = Some c -> config_ok p c;
  G_req_u : NoDup (map rq_ref (w_requests s));
  G_ev_u : NoDup (map ev_ref (w_events s));
  G_bc_u : NoDup (map bc_ref (w_beacons s))
}.

Lemma request_grows : forall p p' r, grows p p' -> request_ok p r -> request_ok p' r.
Proof.
  intros p p' r G (A & B & C & D).
  assert (I : forall x, isdef p x -> isdef p' x) by (intros x; apply defined_grows; exact G).
  split; [destruct A as (q & A1 & A2); exists q; auto|]. split; [destruct (rq_err r); auto|].
  split; [eapply Forall_impl; [|exact C]; exact I|].
  eapply Forall_impl; [|exact D]. intros a (X & (y & Y1 & Y2) & Z). split; [exact X|]. split; [exists y; auto|].
  eapply Forall_impl; [|exact Z]. intros b. apply I.
Qed.
Lemma event_grows : forall p p' r, grows p p' -> event_ok p r -> event_ok p' r.
Proof.
  intros p p' r G ((q & A1 & A2) & B & C).
  assert (I : forall x, isdef p x -> isdef p' x) by (intros x; apply defined_grows; exact G).
  split; [exists q; split; [exact A1|]; destruct A2; auto|]. split; [exact B|].
  eapply Forall_impl; [|exact C]. intros b. apply I.
Qed.
Lemma config_grows : forall p p' c, grows p p' -> config_ok p c -> config_ok p' c.
Proof.
  intros p p' c G ((k & A1 & A2) & (k2 & B1 & B2) & C).
  assert (I : forall x, isdef p x -> isdef p' x) by (intros x; apply defined_grows; exact G).
  split; [exists k; auto|]. split; [exists k2; auto | exact C].
Qed.
Lemma wgood_grows : forall s p p', grows p p' -> wgood s p -> wgood s p'.
Proof.
  intros s p p' G [A B C D E F H]. constructor; auto.
  - eapply Forall_impl; [|exact A]. intro. apply request_grows. exact G.
  - eapply Forall_impl; [|exact B]. intro. apply event_grows. exact G.
  - eapply Forall_impl; [|exact C]. intros b. apply defined_grows. exact G.
  - intros c K. eapply config_grows; eauto.
Qed.

Lemma NoDup_snoc : forall (A : Type) (l : list A) x, NoDup l -> ~ In x l -> NoDup (l ++ [x]).
Proof.
  induction l as [|y l IH]; intros x N H; cbn [app]; [constructor; [exact H | constructor]|].
  inversion N; subst. constructor.
  - intro K. apply in_app_or in K as [K | [K | []]]; [auto|]. subst. apply H. left. reflexivity.
  - apply IH; [assumption|]. intro K. apply H. right. exact K.
Qed.

Lemma oteqb_eq : forall a b, oteqb (Some a) b = true <-> b = Some a.
Proof.
  intros a [b|]; cbn [oteqb]; [|split; discriminate]. rewrite teqb_eq. split; congruence.
Qed.

Lemma fresh_ref : forall (A : Type) (f : A -> option text) l x q, f x = Some q ->
  existsb (fun y => oteqb (f y) (f x)) l = false -> ~ In (f x) (map f l).
Proof.
  intros A f l x q Q E K. apply in_map_iff in K as (y & Y1 & Y2).
  assert (existsb (fun y => oteqb (f y) (f x)) l = true).
  { apply existsb_exists. exists y. split; [exact Y2|]. rewrite Y1, Q. apply oteqb_eq. reflexivity. }
  congruence.
Qed.

Lemma add_beacons_ok : forall p new old l, Forall (bc_ok p) new -> Forall (bc_ok p) old ->
  NoDup (map bc_ref old) -> add_beacons old new = Ok l -> Forall (bc_ok p) l /\ NoDup (map bc_ref l).
Proof.
  intros p. induction new as [|b new IH]; intros old l F1 F2 N H; cbn [add_beacons] in H.
  - injection H as <-. auto.
  - destruct (existsb (fun x => teqb (bc_ref x) (bc_ref b)) old) eqn:E; [discriminate|]. inversion F1; subst.
    refine (IH (old ++ [b]) l _ _ _ H); [assumption | apply Forall_app; auto |].
    rewrite map_app. apply NoDup_snoc; [exact N|]. intro K. apply in_map_iff in K as (y & Y1 & Y2).
    assert (existsb (fun x => teqb (bc_ref x) (bc_ref b)) old = true).
    { apply existsb_exists. exists y. split; [exact Y2 | apply teqb_eq; exact Y1]. }
    congruence.
Qed.

Lemma add_entity_ok : forall s p e s', wgood s p -> entity_ok p e -> add_entity s e = Ok s' -> wgood s' p.
Proof.
  intros s p e s' G K H. destruct G as [A B C D E F I].
  destruct e as [c|r|b|v]; cbn [add_entity entity_ok] in *.
  - destruct (is_some (w_config s)); [discriminate|]. injection H as <-. constructor; cbn; auto.
    intros c' [= <-]. exact K.
  - destruct (rq_ref r) as [q|] eqn:Q; [|discriminate]. cbn [is_some negb] in H.
    destruct (existsb (fun x => oteqb (rq_ref x) (Some q)) (w_requests s)) eqn:X; [discriminate|]. injection H as <-.
    constructor; cbn [w_requests w_events w_beacons w_config]; auto.
    + apply Forall_app. auto.
    + rewrite map_app. apply NoDup_snoc; [exact E|]. eapply fresh_ref; [exact Q | rewrite Q; exact X].
  - destruct (add_beacons (w_beacons s) (bs_list b)) as [l|x|] eqn:L; try discriminate. injection H as <-.
    destruct (add_beacons_ok p _ _ _ (proj2 K) C I L) as [L1 L2]. constructor; cbn; auto.
  - destruct (ev_ref v) as [q|] eqn:Q; [|discriminate]. cbn [is_some negb] in H.
    destruct (existsb (fun x => oteqb (ev_ref x) (Some q)) (w_events s)) eqn:X; [discriminate|]. injection H as <-.
    constructor; cbn [w_requests w_events w_beacons w_config]; auto.
    + apply Forall_app. auto.
    + rewrite map_app. apply NoDup_snoc; [exact F|]. eapply fresh_ref; [exact Q | rewrite Q; exact X].
Qed.

Definition openable (o : option entity_open) : Prop :=
  match o with Some e => entity_closed e = false | None => True end.

Lemma open_entity_open : forall w e, open_entity w = Some e -> entity_closed e = false.
Proof. intros w e H. unfold open_entity in H. crunch H; try discriminate; injection H as <-; reflexivity. Qed.

Lemma feed_ok : forall e t s p o' s' p', entity_closed e = false -> wgood s p ->
  feed e t s p = Ok (o', s', p') -> openable o' /\ grows p p' /\ wgood s' p'.
Proof.
  intros e t s p o' s' p' C G H. unfold feed in H.
  destruct (entity_next e t p) as [[e1 p1]|x|] eqn:N; try discriminate. cbn [bind] in H.
  destruct (entity_next_ok _ _ _ _ _ C N) as [A B]. pose proof (wgood_grows _ _ _ A G) as G1.
  destruct (entity_closed e1) eqn:C1.
  - destruct (add_entity s e1) as [s1|x|] eqn:S1; try discriminate. cbn [bind] in H. injection H as <- <- <-.
    split; [exact I|]. split; [exact A|]. eapply add_entity_ok; eauto.
  - injection H as <- <- <-. auto.
Qed.

Lemma wstep_ok : forall o t s p o' s' p', openable o -> wgood s p ->
  wstep o t s p = Ok (o', s', p') -> openable o' /\ grows p p' /\ wgood s' p'.
Proof.
  intros o t s p o' s' p' C G H. destruct o as [e|].
  - eapply feed_ok; eauto.
  - destruct t; cbn [wstep] in H; try discriminate. destruct (open_entity w) as [e|] eqn:E; [|discriminate].
    apply open_entity_open in E. destruct (offset =? 0).
    + eapply feed_ok; eauto.
    + injection H as <- <- <-. split; [exact E|]. split; [apply grows_refl | exact G].
Qed.

Lemma wrun_ok : forall fuel content o s p s' p', openable o -> wgood s p ->
  wrun fuel content o s p = WAccepted s' p' ->
  grows p p' /\ wgood s' p' /\ exists u, validate (w_requests s') (w_beacons s') = Ok u.
Proof.
  induction fuel as [|fuel IH]; intros content o s p s' p' C G H; [discriminate|]. cbn [wrun] in H.
  destruct (wlex content [] 0 false false) as [t|e|]; try discriminate.
  assert (K : t = WEnd \/ t <> WEnd) by (destruct t; (left; reflexivity) || (right; discriminate)).
  destruct K as [->|K].
  { destruct (validate (w_requests s) (w_beacons s)) as [u|e|] eqn:V; try discriminate. injection H as <- <-.
    split; [apply grows_refl|]. split; [exact G | exists u; exact V]. }
  assert (H' : match wstep o t s p with
              | Ok (o, s, p) =>
                match slice content (woffset t) with
                | Some content => wrun fuel content o s p
                | None => WPanicked
                end
              | _ => WRejected
              end = WAccepted s' p') by (destruct t; congruence).
  clear H. destruct (wstep o t s p) as [[[o1 s1] p1]|e|] eqn:S; try discriminate.
  destruct (slice content (woffset t)) as [rest|]; [|discriminate].
  destruct (wstep_ok _ _ _ _ _ _ _ C G S) as (A & B & D).
  destruct (IH _ _ _ _ _ _ A D H') as (X & Y & Z). split; [eapply grows_trans; eauto | auto].
Qed.

Lemma wgood_new : forall p, wgood wstore_new p.
Proof. intro p. constructor; try (intros c K; discriminate K); constructor. Qed.

Lemma validate_disjoint : forall rs bs u, validate rs bs = Ok u ->
  forall b r, In b bs -> In r rs -> rq_ref r <> Some (bc_ref b).
Proof.
  intros rs. induction bs as [|b0 bs IH]; intros u H b r B R E; [destruct B|]. cbn [validate] in H.
  destruct (request_exists rs (bc_ref b0)) as [x|e|] eqn:X; try discriminate. cbn [bind] in H.
  destruct x; [discriminate|]. destruct B as [<-|B]; [|eapply IH; eauto].
  clear - X R E. induction rs as [|r0 rs IH]; [destruct R|]. cbn [request_exists] in X.
  destruct (rq_ref r0) as [q|] eqn:Q; [|discriminate]. destruct (teqb q (bc_ref b0)) eqn:T; [discriminate|].
  destruct R as [<-|R]; [|auto]. rewrite Q in E. injection E as ->. rewrite teqb_refl in T. discriminate.
Qed.
