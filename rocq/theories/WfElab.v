(** Declarations of a workflow file, their tokens, and what the parser stores. *)
From Coq Require Import String Ascii NArith List Arith Lia Bool.
From Verif Require Import Bytes ProtoModel ProtoProofs ProtoInv ProtoRun ProtoTypes ProtoService
  ProtoGrammar WfModel WfProofs WfGrammar.
Import ListNotations.
Close Scope string_scope.
Open Scope list_scope.
Open Scope nat_scope.

(** ** Declarations *)

(** a path: its first component and the others *)
Definition path : Type := text * list text.

Fixpoint dotted (q : text) (ws : list text) : text :=
  match ws with
  | [] => q
  | w :: ws => dotted (q ++ "."%char :: w) ws
  end.
(** [A.B.C] *)
Definition ref_of (q : path) : text := dotted (fst q) (snd q).

(** [(Accept > UserLogin.Accepted) > Events.A; > Events.B?;] *)
Record action_decl := mkActionDecl {
  ad_concl : option text; ad_resp : path; ad_bcs : list (path * bool)
}.

Inductive config_entry :=
| CETargets (producer : bool) (ts : list target)   (* Producer: rust typescript; *)
| CESelf (q : path)                                (* SelfKey: A.B; *)
| CEAssigned (q : path).                           (* AssignedKey: A.B; *)

Inductive wdecl :=
| DConfig (es : list config_entry)
| DPlain (q : path)                                       (* A.B; *)
| DBroadcast (q : path) (bs : list path)                  (* A.B { > C.D; } *)
| DActions (q e : path) (acts : list action_decl)         (* A.B !C.D { ( .. ) .. } *)
| DEvent (q : path) (bs : list (path * bool))             (* @A.B { > C.D?; } *)
| DBeacons (bs : list path).                              (* @beacons { > A.B; } *)

(** ** Tokens *)

Definition sym (s : string) : list wk :=
  match s with String c EmptyString => [KSym c] | _ => [] end.

Definition more_toks (ws : list text) : list wk := flat_map (fun w => [KSym "."%char; KWd w]) ws.
Definition path_toks (q : path) : list wk := KWd (fst q) :: more_toks (snd q).

Definition bc_toks (b : path * bool) : list wk :=
  sym ">" ++ path_toks (fst b) ++ (if snd b then sym "?" else []) ++ sym ";".
Definition plain_bc_toks (q : path) : list wk := sym ">" ++ path_toks q ++ sym ";".

Definition action_toks (a : action_decl) : list wk :=
  sym "(" ++
  match ad_concl a with Some c => [KWd c] ++ sym ">" | None => [] end ++
  path_toks (ad_resp a) ++ sym ")" ++
  match ad_bcs a with [] => sym ";" | bs => flat_map bc_toks bs end.

Definition target_word (t : target) : text :=
  match t with TRust => txt "rust" | TTypeScript => txt "typescript" end.

Definition entry_toks (e : config_entry) : list wk :=
  match e with
  | CETargets producer ts =>
    [KWd (if producer then txt "Producer" else txt "Consumer")] ++ sym ":" ++
    map (fun t => KWd (target_word t)) ts ++ sym ";"
  | CESelf q => [KWd (txt "SelfKey")] ++ sym ":" ++ path_toks q ++ sym ";"
  | CEAssigned q => [KWd (txt "AssignedKey")] ++ sym ":" ++ path_toks q ++ sym ";"
  end.

Definition wdecl_toks (d : wdecl) : list wk :=
  match d with
  | DConfig es => [KWd (txt "&config")] ++ sym "{" ++ flat_map entry_toks es ++ sym "}"
  | DPlain q => path_toks q ++ sym ";"
  | DBroadcast q bs => path_toks q ++ sym "{" ++ flat_map plain_bc_toks bs ++ sym "}"
  | DActions q e acts =>
    path_toks q ++ sym "!" ++ path_toks e ++ sym "{" ++ flat_map action_toks acts ++ sym "}"
  | DEvent q bs =>
    KWd ("@"%char :: fst q) :: more_toks (snd q) ++ sym "{" ++ flat_map bc_toks bs ++ sym "}"
  | DBeacons bs => [KWd (txt "@beacons")] ++ sym "{" ++ flat_map plain_bc_toks bs ++ sym "}"
  end.

Definition wdecls_toks (ds : list wdecl) : list wk := flat_map wdecl_toks ds.

(** ** What the declarations say *)

Definition bref (b : path * bool) : wbroadcast := mkBroadcast (ref_of (fst b)) (snd b).

(** the visible part of a stored action, request, event, configuration *)
Definition action_view (a : waction) := (ac_concl a, ac_resp a, ac_bcs a).
Definition request_view (r : wrequest) :=
  (rq_ref r, rq_err r, map action_view (rq_actions r), rq_bcs r).
Definition event_view (e : wevent) := (ev_ref e, ev_list e).
Definition config_view (c : wconfig) := (cf_producer c, cf_consumer c, cf_self c, cf_assigned c).

Definition action_says (a : action_decl) := (ad_concl a, Some (ref_of (ad_resp a)), map bref (ad_bcs a)).

Definition says_request (d : wdecl) :=
  match d with
  | DPlain q => [(Some (ref_of q), None, [], [])]
  | DBroadcast q bs => [(Some (ref_of q), None, [], map ref_of bs)]
  | DActions q e acts => [(Some (ref_of q), Some (ref_of e), map action_says acts, [])]
  | _ => []
  end.
(** the first component of what is said of a request *)
Definition request_name {A B C : Type} (r : option text * A * B * C) : option text :=
  let '(q, _, _, _) := r in q.
Definition says_event (d : wdecl) :=
  match d with DEvent q bs => [(Some (ref_of q), map bref bs)] | _ => [] end.
Definition says_beacon (d : wdecl) :=
  match d with DBeacons bs => map (fun q => mkBroadcast (ref_of q) false) bs | _ => [] end.

Definition says_config (d : wdecl) :=
  match d with
  | DConfig es =>
    [(concat (flat_map (fun e => match e with CETargets true ts => [ts] | _ => [] end) es),
      concat (flat_map (fun e => match e with CETargets false ts => [ts] | _ => [] end) es),
      Some (hd (service "SelfKeyRequest")
               (flat_map (fun e => match e with CESelf q => [ref_of q] | _ => [] end) es)),
      Some (hd (service "AssignedKey")
               (flat_map (fun e => match e with CEAssigned q => [ref_of q] | _ => [] end) es)))]
  | _ => []
  end.

(** ** Well-formed declarations *)

Definition name (w : text) : Prop := wident w /\ forallb word_char w = true.
Definition path_ok (q : path) : Prop := name (fst q) /\ Forall name (snd q).
Definition refers (p : store) (q : path) : Prop := path_ok q /\ defined p (ref_of q) = true.

Definition action_decl_ok (p : store) (several : bool) (a : action_decl) : Prop :=
  match ad_concl a with
  | Some c => name c
  | None => several = false /\ ad_bcs a = []     (* no broadcasts without a conclusion *)
  end /\
  refers p (ad_resp a) /\ Forall (fun b => refers p (fst b)) (ad_bcs a) /\
  NoDup (map (fun b => ref_of (fst b)) (ad_bcs a)).

Definition entry_kind (e : config_entry) : nat :=
  match e with CETargets true _ => 0 | CETargets false _ => 1 | CESelf _ => 2 | CEAssigned _ => 3 end.

Definition entry_ok (p : store) (e : config_entry) : Prop :=
  match e with
  | CETargets _ ts => ts <> [] /\ NoDup ts
  | CESelf q | CEAssigned q => refers p q
  end.

(** [q] can start a declaration: no '_' in its first component *)
Definition starts (q : path) : Prop := forallb is_alnum (fst q) = true.

Definition wdecl_ok (p : store) (d : wdecl) : Prop :=
  match d with
  | DConfig es => Forall (entry_ok p) es /\ NoDup (map entry_kind es) /\
                  In 0 (map entry_kind es) /\ In 1 (map entry_kind es)
  | DPlain q => refers p q /\ starts q /\ snd q <> []       (* at least one '.' *)
  | DBroadcast q bs => refers p q /\ starts q /\ snd q <> [] /\ bs <> [] /\ Forall (refers p) bs
  | DActions q e acts =>
    refers p q /\ starts q /\ refers p e /\ acts <> [] /\
    Forall (action_decl_ok p (1 <? length acts)) acts
  | DEvent q bs =>
    path_ok q /\ (default_event (ref_of q) = true \/ defined p (ref_of q) = true) /\
    fst q <> txt "beacons" /\ bs <> [] /\ Forall (fun b => refers p (fst b)) bs
  | DBeacons bs => bs <> [] /\ Forall (refers p) bs
  end.

Definition workflow_ok (p : store) (ds : list wdecl) : Prop :=
  Forall (wdecl_ok p) ds /\
  NoDup (map request_name (flat_map says_request ds)) /\ NoDup (map fst (flat_map says_event ds)) /\
  NoDup (map bc_ref (flat_map says_beacon ds)) /\ length (flat_map says_config ds) <= 1 /\
  (forall b, In b (flat_map says_beacon ds) ->
     ~ In (Some (bc_ref b)) (map request_name (flat_map says_request ds))).

(** ** Runs inside an entity *)

(** the tokens [ks] take the open entity [a] to [b]; it stays open all the time
    and the stores are not touched *)
Inductive goes : list wk -> entity_open -> entity_open -> Prop :=
| GO_nil : forall a, goes [] a a
| GO_step : forall k ks a b c, (forall s p, krun [k] (Some a) s p = Ok (Some b, s, p)) ->
    goes ks b c -> goes (k :: ks) a c.

Lemma goes_run : forall ks a b, goes ks a b -> forall s p, krun ks (Some a) s p = Ok (Some b, s, p).
Proof.
  intros ks a b G. induction G as [a|k ks a b c S G IH]; intros s p; [reflexivity|].
  change (k :: ks) with ([k] ++ ks). rewrite krun_app, S. cbn [bind]. apply IH.
Qed.
Lemma goes_app : forall ks ks' a b c, goes ks a b -> goes ks' b c -> goes (ks ++ ks') a c.
Proof.
  intros ks ks' a b c A. induction A as [a|k ks a b d S G IH]; intro B; [exact B|].
  cbn [app]. eapply GO_step; [exact S | apply IH; exact B].
Qed.
Lemma goes_cons : forall k ks a b c, goes [k] a b -> goes ks b c -> goes (k :: ks) a c.
Proof. intros k ks a b c A B. apply (goes_app [k] ks a b c A B). Qed.
Lemma goes_nil : forall a, goes [] a a.
Proof. intros a. constructor. Qed.
Lemma goes_one : forall k a b, (forall p, entity_next a (ktok k) p = Ok (b, p)) -> entity_closed b = false ->
  goes [k] a b.
Proof.
  intros k a b H C. eapply GO_step; [|constructor]. intros s p. cbn [krun wstep bind]. unfold feed.
  rewrite H. cbn [bind]. rewrite C. reflexivity.
Qed.
Lemma goes_prefix : forall ks ks' a c, goes (ks ++ ks') a c -> exists b, goes ks a b.
Proof.
  induction ks as [|k ks IH]; intros ks' a c G; [exists a; constructor|].
  cbn [app] in G. inversion G as [|? ? ? b ? S G']; subst. destruct (IH _ _ _ G') as (d & D).
  exists d. eapply GO_step; eassumption.
Qed.

(** a holder of a path: what it does with words and dots *)
Record holder (st : text -> list wexp -> entity_open) (X : list wexp) : Prop := mkHolder {
  H_word : forall q xs w, expects xs QWord = true -> goes [KWd w] (st q xs) (st (extend q w) X);
  H_dot : forall q xs, expects xs QDot = true -> goes [KSym "."%char] (st q xs) (st q [QWord]);
  H_more : expects X QDot = true
}.

Lemma dotted_app : forall ws q, q <> [] -> dotted q ws <> [].
Proof. induction ws as [|w ws IH]; intros q N; cbn [dotted]; [exact N|]. apply IH. destruct q; discriminate. Qed.

Lemma more_goes : forall st X, holder st X -> forall ws q xs, q <> [] -> expects xs QDot = true ->
  goes (more_toks ws) (st q xs) (st (dotted q ws) (match ws with [] => xs | _ => X end)).
Proof.
  intros st X H. destruct H as [HW HD HM].
  induction ws as [|w ws IH]; intros q xs N E; [apply goes_nil|]. cbn [more_toks flat_map app dotted].
  eapply goes_cons; [apply HD; exact E|]. eapply goes_cons; [apply HW; reflexivity|].
  replace (extend q w) with (q ++ "."%char :: w) by (destruct q; [congruence | reflexivity]).
  assert (K : match ws with [] => X | _ => X end = X) by (destruct ws; reflexivity).
  pose proof (IH (q ++ "."%char :: w) X) as I. rewrite K in I. apply I; [destruct q; discriminate | exact HM].
Qed.

Lemma path_goes : forall st X q xs, holder st X -> path_ok q -> expects xs QWord = true ->
  goes (path_toks q) (st [] xs) (st (ref_of q) X).
Proof.
  intros st X [w ws] xs H [W _] E. unfold path_toks, ref_of. cbn [fst snd] in *.
  eapply goes_cons; [apply (H_word _ _ H); exact E|]. cbn [extend].
  pose proof (more_goes st X H ws w X) as M.
  replace (match ws with [] => X | _ => X end) with X in M by (destruct ws; reflexivity). apply M.
  - destruct W as [W _]. destruct w; [destruct W | discriminate].
  - apply (H_more _ _ H).
Qed.

Lemma ref_nonempty : forall q, path_ok q -> nonempty (ref_of q) = true.
Proof.
  intros [w ws] [[W _] _]. unfold ref_of. cbn [fst snd] in *.
  assert (dotted w ws <> []) by (apply dotted_app; destruct w; [destruct W | discriminate]).
  destruct (dotted w ws); [congruence | reflexivity].
Qed.

Ltac holds := constructor; [intros q xs w E; apply goes_one; [intro p; cbn [entity_next ktok]; cbn; unfold expects in E; rewrite ?E; reflexivity | reflexivity]
  | intros q xs E; apply goes_one; [intro p; cbn; unfold expects in E; rewrite ?E; reflexivity | reflexivity] | reflexivity].

(** *** Beacons *)

Definition bs_at (l : list wbroadcast) (q : text) (xs : list wexp) : entity_open :=
  OBeacons (mkBeacons l xs (Some q) false).
Lemma bs_holds : forall l, holder (bs_at l) [QWord; QDot; QSemi].
Proof. intro l. unfold bs_at. holds. Qed.

Lemma beacon_goes : forall q l xs, path_ok q -> expects xs QArrow = true ->
  goes (plain_bc_toks q) (OBeacons (mkBeacons l xs None false))
       (OBeacons (mkBeacons (l ++ [mkBroadcast (ref_of q) false]) [QArrow; QClose] None false)).
Proof.
  intros q l xs Q E. unfold plain_bc_toks. eapply goes_app.
  - apply (goes_one _ _ (bs_at l [] [QWord; QDot])); [|reflexivity]. intro p. cbn. unfold expects in E. rewrite E. reflexivity.
  - eapply goes_app; [apply (path_goes _ _ q _ (bs_holds l) Q); reflexivity|].
    apply goes_one; [|reflexivity]. intro p. cbn. rewrite (ref_nonempty q Q). reflexivity.
Qed.

Lemma beacons_go : forall qs l xs, Forall path_ok qs -> expects xs QArrow = true ->
  goes (flat_map plain_bc_toks qs) (OBeacons (mkBeacons l xs None false))
       (OBeacons (mkBeacons (l ++ map (fun q => mkBroadcast (ref_of q) false) qs)
                            (match qs with [] => xs | _ => [QArrow; QClose] end) None false)).
Proof.
  induction qs as [|q qs IH]; intros l xs F E; cbn [flat_map map].
  - rewrite app_nil_r. apply goes_nil.
  - inversion F; subst. eapply goes_app; [apply beacon_goes; assumption|].
    replace (l ++ mkBroadcast (ref_of q) false :: map (fun q => mkBroadcast (ref_of q) false) qs)
      with ((l ++ [mkBroadcast (ref_of q) false]) ++ map (fun q => mkBroadcast (ref_of q) false) qs)
      by (rewrite <- app_assoc; reflexivity).
    pose proof (IH (l ++ [mkBroadcast (ref_of q) false]) [QArrow; QClose]) as I.
    destruct qs; apply I; auto.
Qed.

(** *** Events *)

Definition ev_at (l : list wbroadcast) (q : text) (xs : list wexp) : entity_open :=
  OEvent (mkEvent None l xs (EReference q) false).
Lemma ev_holds : forall l, holder (ev_at l) [QWord; QDot; QOpen; QSemi].
Proof. intro l. unfold ev_at. holds. Qed.
Definition evb_at (r : text) (l : list wbroadcast) (q : text) (xs : list wexp) : entity_open :=
  OEvent (mkEvent (Some r) l xs (EBroadcast (mkBroadcast q false)) false).
Lemma evb_holds : forall r l, holder (evb_at r l) [QWord; QDot; QSemi; QQuest].
Proof. intros r l. unfold evb_at. holds. Qed.

Lemma ebc_goes : forall r b l xs, path_ok (fst b) -> expects xs QArrow = true ->
  goes (bc_toks b) (OEvent (mkEvent (Some r) l xs ENothing false))
       (OEvent (mkEvent (Some r) (l ++ [bref b]) [QArrow; QClose] ENothing false)).
Proof.
  intros r [q o] l xs Q E. unfold bc_toks, bref. cbn [fst snd] in *. eapply goes_app.
  - apply (goes_one _ _ (evb_at r l [] [QWord; QDot])); [|reflexivity]. intro p. cbn. unfold expects in E. rewrite E. reflexivity.
  - eapply goes_app; [apply (path_goes _ _ q _ (evb_holds r l) Q); reflexivity|].
    destruct o.
    + eapply goes_app.
      * apply (goes_one _ _ (OEvent (mkEvent (Some r) l [QSemi] (EBroadcast (mkBroadcast (ref_of q) true)) false)));
          [|reflexivity]. intro p. cbn. rewrite (ref_nonempty q Q). reflexivity.
      * apply goes_one; [|reflexivity]. intro p. cbn. rewrite (ref_nonempty q Q). reflexivity.
    + apply goes_one; [|reflexivity]. intro p. cbn. rewrite (ref_nonempty q Q). reflexivity.
Qed.

Lemma ebcs_go : forall r bs l xs, Forall (fun b => path_ok (fst b)) bs -> expects xs QArrow = true ->
  goes (flat_map bc_toks bs) (OEvent (mkEvent (Some r) l xs ENothing false))
       (OEvent (mkEvent (Some r) (l ++ map bref bs) (match bs with [] => xs | _ => [QArrow; QClose] end) ENothing false)).
Proof.
  intro r. induction bs as [|b bs IH]; intros l xs F E; cbn [flat_map map].
  - rewrite app_nil_r. apply goes_nil.
  - inversion F; subst. eapply goes_app; [apply ebc_goes; assumption|].
    replace (l ++ bref b :: map bref bs) with ((l ++ [bref b]) ++ map bref bs) by (rewrite <- app_assoc; reflexivity).
    pose proof (IH (l ++ [bref b]) [QArrow; QClose]) as I. destruct bs; apply I; auto.
Qed.

(** *** Requests *)

Definition rq_at (q : text) (xs : list wexp) : entity_open :=
  ORequest (mkRequest None None [] [] xs (RRequest q) false).
Lemma rq_holds : holder rq_at [QWord; QDot; QSemi; QExcl; QOpen].
Proof. unfold rq_at. holds. Qed.
Definition re_at (r : text) (q : text) (xs : list wexp) : entity_open :=
  ORequest (mkRequest (Some r) None [] [] xs (RError q) false).
Lemma re_holds : forall r, holder (re_at r) [QWord; QDot; QOpen].
Proof. intro r. unfold re_at. holds. Qed.
Definition rb_at (r : text) (l : list text) (q : text) (xs : list wexp) : entity_open :=
  ORequest (mkRequest (Some r) None [] l xs (RBroadcast q) false).
Lemma rb_holds : forall r l, holder (rb_at r l) [QWord; QDot; QSemi].
Proof. intros r l. unfold rb_at. holds. Qed.

Lemma rbc_goes : forall r q l xs, path_ok q -> expects xs QArrow = true ->
  goes (plain_bc_toks q) (ORequest (mkRequest (Some r) None [] l xs RNothing false))
       (ORequest (mkRequest (Some r) None [] (l ++ [ref_of q]) [QArrow; QClose] RNothing false)).
Proof.
  intros r q l xs Q E. unfold plain_bc_toks. eapply goes_app.
  - apply (goes_one _ _ (rb_at r l [] [QWord; QDot])); [|reflexivity]. intro p. cbn. unfold expects in E. rewrite E. reflexivity.
  - eapply goes_app; [apply (path_goes _ _ q _ (rb_holds r l) Q); reflexivity|].
    apply goes_one; [|reflexivity]. intro p. reflexivity.
Qed.

Lemma rbcs_go : forall r qs l xs, Forall path_ok qs -> expects xs QArrow = true ->
  goes (flat_map plain_bc_toks qs) (ORequest (mkRequest (Some r) None [] l xs RNothing false))
       (ORequest (mkRequest (Some r) None [] (l ++ map ref_of qs)
                            (match qs with [] => xs | _ => [QArrow; QClose] end) RNothing false)).
Proof.
  intro r. induction qs as [|q qs IH]; intros l xs F E; cbn [flat_map map].
  - rewrite app_nil_r. apply goes_nil.
  - inversion F; subst. eapply goes_app; [apply rbc_goes; assumption|].
    replace (l ++ ref_of q :: map ref_of qs) with ((l ++ [ref_of q]) ++ map ref_of qs)
      by (rewrite <- app_assoc; reflexivity).
    pose proof (IH (l ++ [ref_of q]) [QArrow; QClose]) as I. destruct qs; apply I; auto.
Qed.

(** actions *)
Definition mid (q e : text) (done : list waction) (xs : list wexp) (d : rpending) : wrequest :=
  mkRequest (Some q) (Some e) done [] xs d false.

Inductive between (q e : text) : list waction -> wrequest -> Prop :=
| BT_first : between q e [] (mid q e [] [QOpenB] RNothing)
| BT_closed : forall done, between q e done (mid q e done [QClose; QOpenB] RNothing)
| BT_pending : forall done a, action_valid a = true ->
    between q e (done ++ [a]) (mid q e done [QClose; QOpenB; QArrow] (RAction a)).

Definition action_of (a : action_decl) : waction :=
  mkAction (ad_concl a) (Some (ref_of (ad_resp a))) (map bref (ad_bcs a)) [] false.

Definition ra_at (q e : text) (done : list waction) (cc rr : option text) (bs : list wbroadcast)
  (cur : text) (xs : list wexp) : entity_open :=
  ORequest (mid q e done xs (RAction (mkAction cc rr bs cur false))).
Lemma ra_holds1 : forall q e done bs, holder (ra_at q e done None None bs) [QDot; QWord; QArrow; QCloseB].
Proof. intros a b c d. unfold ra_at, mid. holds. Qed.
Lemma ra_holds2 : forall q e done c bs, holder (ra_at q e done (Some c) None bs) [QDot; QWord; QCloseB].
Proof. intros a b c d f. unfold ra_at, mid. holds. Qed.
Lemma ra_holds3 : forall q e done c r bs, holder (ra_at q e done (Some c) (Some r) bs) [QDot; QWord; QSemi; QQuest].
Proof. intros a b c d f g. unfold ra_at, mid. holds. Qed.

Lemma abc_goes : forall q e done c r b l xs, path_ok (fst b) -> expects xs QArrow = true ->
  ~ In (ref_of (fst b)) (map bc_ref l) ->
  goes (bc_toks b) (ra_at q e done (Some c) (Some r) l [] xs)
       (ra_at q e done (Some c) (Some r) (l ++ [bref b]) [] [QClose; QOpenB; QArrow]).
Proof.
  intros q e done c r [b o] l xs Q E N. unfold bc_toks, bref. cbn [fst snd] in *.
  assert (F : existsb (fun x => teqb (bc_ref x) (ref_of b)) l = false).
  { destruct (existsb _ l) eqn:X; [|reflexivity]. apply existsb_exists in X as (x & X1 & X2).
    apply teqb_eq in X2. elim N. rewrite <- X2. apply in_map. exact X1. }
  eapply goes_app.
  - apply (goes_one _ _ (ra_at q e done (Some c) (Some r) l [] [QWord])); [|reflexivity]. intro p. cbn. unfold expects in E. rewrite E. reflexivity.
  - eapply goes_app; [apply (path_goes _ _ b _ (ra_holds3 q e done c r l) Q); reflexivity|].
    destruct o.
    + eapply goes_app.
      * apply (goes_one _ _ (ORequest (mid q e done [QSemi] (RAction (mkAction (Some c) (Some r) l (ref_of b) true)))));
          [|reflexivity]. intro p. reflexivity.
      * apply goes_one; [|reflexivity]. intro p. cbn. rewrite (ref_nonempty b Q), F. reflexivity.
    + apply goes_one; [|reflexivity]. intro p. cbn. rewrite (ref_nonempty b Q), F. reflexivity.
Qed.

Lemma abcs_go : forall q e done c r bs l xs, Forall (fun b => path_ok (fst b)) bs -> expects xs QArrow = true ->
  NoDup (map bc_ref l ++ map (fun b => ref_of (fst b)) bs) ->
  goes (flat_map bc_toks bs) (ra_at q e done (Some c) (Some r) l [] xs)
       (ra_at q e done (Some c) (Some r) (l ++ map bref bs) []
              (match bs with [] => xs | _ => [QClose; QOpenB; QArrow] end)).
Proof.
  intros q e done c r. induction bs as [|b bs IH]; intros l xs F E N; cbn [flat_map map] in *.
  - rewrite app_nil_r. apply goes_nil.
  - inversion F; subst. eapply goes_app.
    + apply abc_goes; try assumption. intro K. apply NoDup_remove_2 in N. apply N, in_or_app. left. exact K.
    + replace (l ++ bref b :: map bref bs) with ((l ++ [bref b]) ++ map bref bs) by (rewrite <- app_assoc; reflexivity).
      pose proof (IH (l ++ [bref b]) [QClose; QOpenB; QArrow]) as I.
      destruct bs; apply I; auto; rewrite map_app, <- app_assoc; exact N.
Qed.

Lemma action_goes : forall p q e done r a several, between q e done r -> action_decl_ok p several a ->
  exists r', goes (action_toks a) (ORequest r) (ORequest r') /\ between q e (done ++ [action_of a]) r'.
Proof.
  intros p q e done r a several B (C & (R & _) & L & N).
  assert (O : goes (sym "(") (ORequest r) (ra_at q e done None None [] [] [QWord])).
  { apply goes_one; [|reflexivity]. intro p0. destruct B as [|done|done x V]; cbn; rewrite ?V; reflexivity. }
  destruct a as [cc rr bs]; cbn [ad_concl ad_resp ad_bcs] in *. unfold action_toks, action_of. cbn [ad_concl ad_resp ad_bcs].
  assert (LP : Forall (fun b => path_ok (fst b)) bs) by (eapply Forall_impl; [|exact L]; intros b [X _]; exact X).
  destruct cc as [c|].
  - (* with a conclusion *)
    assert (M : goes (sym "(" ++ ([KWd c] ++ sym ">") ++ path_toks rr ++ sym ")") (ORequest r)
                  (ra_at q e done (Some c) (Some (ref_of rr)) [] [] [QArrow; QSemi])).
    { eapply goes_app; [exact O|]. eapply goes_app; [eapply goes_app|eapply goes_app].
      - apply (H_word _ _ (ra_holds1 q e done [])). reflexivity.
      - apply (goes_one _ _ (ra_at q e done (Some c) None [] [] [QWord])); [|reflexivity]. intro p0. cbn.
        destruct C as [C _]. destruct c; [destruct C | reflexivity].
      - apply (path_goes _ _ rr _ (ra_holds2 q e done c []) R). reflexivity.
      - apply goes_one; [|reflexivity]. intro p0. cbn. rewrite (ref_nonempty rr R). reflexivity. }
    destruct bs as [|b bs].
    + exists (mid q e (done ++ [mkAction (Some c) (Some (ref_of rr)) [] [] false]) [QClose; QOpenB] RNothing).
      split; [|constructor]. rewrite !app_assoc. eapply goes_app; [rewrite <- !app_assoc; exact M|].
      apply goes_one; [|reflexivity]. intro p0. reflexivity.
    + eexists. split; [|apply BT_pending].
      * rewrite !app_assoc. eapply goes_app; [rewrite <- !app_assoc; exact M|].
        apply (abcs_go q e done c (ref_of rr) (b :: bs) [] [QArrow; QSemi] LP); [reflexivity | exact N].
      * reflexivity.
  - destruct C as [_ ->]. cbn [map app].
    exists (mid q e (done ++ [mkAction None (Some (ref_of rr)) [] [] false]) [QClose; QOpenB] RNothing).
    split; [|constructor]. eapply goes_app; [exact O|]. eapply goes_app; [|eapply goes_app].
    + apply (path_goes _ _ rr _ (ra_holds1 q e done []) R). reflexivity.
    + apply (goes_one _ _ (ra_at q e done None (Some (ref_of rr)) [] [] [QArrow; QSemi])); [|reflexivity].
      intro p0. cbn. rewrite (ref_nonempty rr R). reflexivity.
    + apply goes_one; [|reflexivity]. intro p0. reflexivity.
Qed.

Lemma actions_go : forall p q e several acts done r, between q e done r -> Forall (action_decl_ok p several) acts ->
  exists r', goes (flat_map action_toks acts) (ORequest r) (ORequest r') /\ between q e (done ++ map action_of acts) r'.
Proof.
  intros p q e several. induction acts as [|a acts IH]; intros done r B F; cbn [flat_map map].
  - exists r. rewrite app_nil_r. split; [apply goes_nil | exact B].
  - inversion F as [|? ? F1 F2]; subst. destruct (action_goes p q e done r a several B F1) as (r1 & G1 & B1).
    destruct (IH _ _ B1 F2) as (r2 & G2 & B2). exists r2. rewrite <- app_assoc in B2. cbn [app] in B2.
    split; [eapply goes_app; eassumption | exact B2].
Qed.

(** *** Configuration *)

Definition cfg (a : list target * list target * option text * option text) (xs : list wexp) (d : cpending)
  : entity_open :=
  let '(pr, co, sf, asg) := a in OConfig (mkConfig pr co sf asg false xs d).

Definition cself_at a (q : text) (xs : list wexp) : entity_open := cfg a xs (CSelf q).
Definition casg_at a (q : text) (xs : list wexp) : entity_open := cfg a xs (CAssigned q).
Lemma cself_holds : forall a, holder (cself_at a) [QWord; QDot; QSemi].
Proof. intros [[[pr co] sf] asg]. unfold cself_at, cfg. holds. Qed.
Lemma casg_holds : forall a, holder (casg_at a) [QWord; QDot; QSemi].
Proof. intros [[[pr co] sf] asg]. unfold casg_at, cfg. holds. Qed.

Definition with_targets (producer : bool) a (ts : list target) :=
  let '(pr, co, sf, asg) := a : list target * list target * option text * option text in
  if producer then (ts, co, sf, asg) else (pr, ts, sf, asg).
Definition targets_of (producer : bool) (a : list target * list target * option text * option text) :=
  let '(pr, co, _, _) := a in if producer then pr else co.

Lemma target_of_word : forall t, target_of (target_word t) = Some t.
Proof. intros []; reflexivity. Qed.
Lemma target_fresh : forall t ts, ~ In t ts -> existsb (target_eqb t) ts = false.
Proof.
  intros t ts N. destruct (existsb (target_eqb t) ts) eqn:E; [|reflexivity]. apply existsb_exists in E as (x & X1 & X2).
  elim N. destruct t, x; try discriminate; exact X1.
Qed.

Lemma targets_go : forall (b : bool) ts a xs, expects xs QWord = true -> NoDup (targets_of b a ++ ts) ->
  goes (map (fun t => KWd (target_word t)) ts) (cfg a xs (if b then CProducer else CConsumer))
       (cfg (with_targets b a (targets_of b a ++ ts)) (match ts with [] => xs | _ => [QWord; QComma; QSemi] end)
            (if b then CProducer else CConsumer)).
Proof.
  intros b. induction ts as [|t ts IH]; intros a xs E N; cbn [map].
  - rewrite app_nil_r. replace (with_targets b a (targets_of b a)) with a; [apply goes_nil|].
    destruct a as [[[pr co] sf] asg], b; reflexivity.
  - assert (F : ~ In t (targets_of b a)).
    { intro K. apply NoDup_remove_2 in N. apply N, in_or_app. left. exact K. }
    apply target_fresh in F.
    eapply goes_cons.
    + apply (goes_one _ _ (cfg (with_targets b a (targets_of b a ++ [t])) [QWord; QComma; QSemi]
                               (if b then CProducer else CConsumer))).
      * intro p. destruct a as [[[pr co] sf] asg]. unfold expects in E.
        destruct b; cbn [cfg with_targets targets_of entity_next ktok config_next cf_exp cf_pend cf_producer cf_consumer] in *;
          unfold expects; rewrite E; unfold add_target; rewrite target_of_word, F; reflexivity.
      * destruct a as [[[pr co] sf] asg], b; reflexivity.
    + pose proof (IH (with_targets b a (targets_of b a ++ [t])) [QWord; QComma; QSemi] eq_refl) as I.
      replace (targets_of b (with_targets b a (targets_of b a ++ [t]))) with (targets_of b a ++ [t]) in I
        by (destruct a as [[[pr co] sf] asg], b; reflexivity).
      replace (with_targets b (with_targets b a (targets_of b a ++ [t])) ((targets_of b a ++ [t]) ++ ts))
        with (with_targets b a (targets_of b a ++ t :: ts)) in I
        by (rewrite <- app_assoc; destruct a as [[[pr co] sf] asg], b; reflexivity).
      destruct ts; apply I; rewrite <- app_assoc; exact N.
Qed.

(** what a list of entries says *)
Definition producers (es : list config_entry) : list target :=
  concat (flat_map (fun e => match e with CETargets true ts => [ts] | _ => [] end) es).
Definition consumers (es : list config_entry) : list target :=
  concat (flat_map (fun e => match e with CETargets false ts => [ts] | _ => [] end) es).
Definition selfs (es : list config_entry) : list text :=
  flat_map (fun e => match e with CESelf q => [ref_of q] | _ => [] end) es.
Definition assigneds (es : list config_entry) : list text :=
  flat_map (fun e => match e with CEAssigned q => [ref_of q] | _ => [] end) es.
Definition after (es : list config_entry) := (producers es, consumers es, hd_error (selfs es), hd_error (assigneds es)).

Lemma no_kind : forall es, (~ In 0 (map entry_kind es) -> producers es = []) /\
  (~ In 1 (map entry_kind es) -> consumers es = []) /\
  (~ In 2 (map entry_kind es) -> selfs es = []) /\ (~ In 3 (map entry_kind es) -> assigneds es = []).
Proof.
  induction es as [|e es (A & B & C & D)]; [repeat split; reflexivity|].
  unfold producers, consumers, selfs, assigneds in *. cbn [map flat_map].
  repeat split; intro K; destruct e as [[]|q|q]; cbn [entry_kind app concat] in *;
    try (elim K; left; reflexivity); (apply A || apply B || apply C || apply D); intro J; apply K; right; exact J.
Qed.

Lemma entry_goes : forall p d e, entry_ok p e -> ~ In (entry_kind e) (map entry_kind d) ->
  goes (entry_toks e) (cfg (after d) [QWord] CNothing) (cfg (after (d ++ [e])) [QWord] CNothing).
Proof.
  intros p d e O N. destruct (no_kind d) as (K0 & K1 & K2 & K3).
  assert (A : after (d ++ [e]) =
    (producers d ++ producers [e], consumers d ++ consumers [e], hd_error (selfs d ++ selfs [e]),
     hd_error (assigneds d ++ assigneds [e]))).
  { unfold after, producers, consumers, selfs, assigneds. rewrite !flat_map_app, !concat_app. reflexivity. }
  rewrite A. clear A. unfold after.
  destruct e as [b ts|q|q]; cbn [entry_kind entry_ok entry_toks] in *.
  - destruct O as [O1 O2].
    assert (Z : targets_of b (producers d, consumers d, hd_error (selfs d), hd_error (assigneds d)) = []).
    { cbn [targets_of]. destruct b; auto. }
    eapply goes_app; [|eapply goes_app; [|eapply goes_app]].
    + apply (goes_one _ _ (cfg (after d) [QColon] (if b then CProducer else CConsumer))); [|destruct b; reflexivity].
      intro p0. unfold after. destruct b; cbn [targets_of] in Z; cbn; rewrite Z; reflexivity.
    + apply (goes_one _ _ (cfg (after d) [QWord] (if b then CProducer else CConsumer))); [|destruct b; reflexivity].
      intro p0. unfold after. destruct b; reflexivity.
    + apply (targets_go b ts (after d) [QWord] eq_refl). unfold after. rewrite Z. exact O2.
    + unfold after. rewrite Z. cbn [app].
      apply goes_one; [|reflexivity]. intro p0. destruct ts as [|t ts]; [congruence|].
      unfold producers, consumers, selfs, assigneds in *.
      destruct b; cbn [targets_of] in Z; rewrite Z; cbn; rewrite !app_nil_r; reflexivity.
  - destruct O as [O _]. rewrite (K2 N). cbn [hd_error].
    set (a := (producers d, consumers d, @None text, hd_error (assigneds d))).
    eapply goes_app; [|eapply goes_app; [|eapply goes_app]].
    + apply (goes_one _ _ (cself_at a [] [QColon])); [|reflexivity]. intro p0. reflexivity.
    + apply (goes_one _ _ (cself_at a [] [QWord])); [|reflexivity]. intro p0. reflexivity.
    + apply (path_goes _ _ q _ (cself_holds a) O). reflexivity.
    + apply goes_one; [|reflexivity]. intro p0. subst a. unfold producers, consumers, selfs, assigneds. cbn. rewrite !app_nil_r. reflexivity.
  - destruct O as [O _]. rewrite (K3 N). cbn [hd_error].
    set (a := (producers d, consumers d, hd_error (selfs d), @None text)).
    eapply goes_app; [|eapply goes_app; [|eapply goes_app]].
    + apply (goes_one _ _ (casg_at a [] [QColon])); [|reflexivity]. intro p0. reflexivity.
    + apply (goes_one _ _ (casg_at a [] [QWord])); [|reflexivity]. intro p0. reflexivity.
    + apply (path_goes _ _ q _ (casg_holds a) O). reflexivity.
    + apply goes_one; [|reflexivity]. intro p0. subst a. unfold producers, consumers, selfs, assigneds. cbn. rewrite !app_nil_r. reflexivity.
Qed.

Lemma entries_go : forall p es d, Forall (entry_ok p) es -> NoDup (map entry_kind (d ++ es)) ->
  goes (flat_map entry_toks es) (cfg (after d) [QWord] CNothing) (cfg (after (d ++ es)) [QWord] CNothing).
Proof.
  intros p. induction es as [|e es IH]; intros d F N; cbn [flat_map].
  - rewrite app_nil_r. apply goes_nil.
  - inversion F as [|? ? F1 F2]; subst. eapply goes_app.
    + apply (entry_goes p d e F1). rewrite map_app in N. cbn [map] in N. apply NoDup_remove_2 in N.
      intro K. apply N, in_or_app. left. exact K.
    + replace (d ++ e :: es) with ((d ++ [e]) ++ es) in * by (rewrite <- app_assoc; reflexivity).
      apply IH; assumption.
Qed.

(** ** Closing an entity *)

Definition config_said (s : wstore) := match w_config s with Some c => [config_view c] | None => [] end.

(** the store [s'] is [s] with what [d] says *)
Definition adds (s s' : wstore) (d : wdecl) : Prop :=
  map request_view (w_requests s') = map request_view (w_requests s) ++ says_request d /\
  map event_view (w_events s') = map event_view (w_events s) ++ says_event d /\
  w_beacons s' = w_beacons s ++ says_beacon d /\
  config_said s' = config_said s ++ says_config d.

(** what [d] says is not in [s] yet *)
Definition fresh_in (s : wstore) (d : wdecl) : Prop :=
  (forall r, In r (says_request d) -> ~ In (request_name r) (map rq_ref (w_requests s))) /\
  (forall e, In e (says_event d) -> ~ In (fst e) (map ev_ref (w_events s))) /\
  NoDup (map bc_ref (w_beacons s) ++ map bc_ref (says_beacon d)) /\
  (says_config d <> [] -> w_config s = None).

Lemma no_ref : forall (A : Type) (f : A -> option text) l q, ~ In (Some q) (map f l) ->
  existsb (fun x => oteqb (f x) (Some q)) l = false.
Proof.
  intros A f l q N. destruct (existsb _ l) eqn:E; [|reflexivity]. apply existsb_exists in E as (x & X1 & X2).
  elim N. destruct (f x) as [t|] eqn:F; [|discriminate]. cbn [oteqb] in X2. apply teqb_eq in X2. subst t.
  rewrite <- F. apply in_map. exact X1.
Qed.

Lemma add_beacons_fresh : forall new old, NoDup (map bc_ref old ++ map bc_ref new) ->
  add_beacons old new = Ok (old ++ new).
Proof.
  induction new as [|b new IH]; intros old N; cbn [add_beacons map] in *; [rewrite app_nil_r; reflexivity|].
  assert (E : existsb (fun x => teqb (bc_ref x) (bc_ref b)) old = false).
  { destruct (existsb _ old) eqn:E; [|reflexivity]. apply existsb_exists in E as (x & X1 & X2).
    apply teqb_eq in X2. apply NoDup_remove_2 in N. elim N. apply in_or_app. left. rewrite <- X2. apply in_map. exact X1. }
  rewrite E, IH.
  - rewrite <- app_assoc. reflexivity.
  - rewrite map_app, <- app_assoc. exact N.
Qed.

Lemma krun_close : forall e k s p e' p' s', entity_next e (ktok k) p = Ok (e', p') -> entity_closed e' = true ->
  add_entity s e' = Ok s' -> krun [k] (Some e) s p = Ok (None, s', p').
Proof.
  intros e k s p e' p' s' N C A. cbn [krun wstep]. unfold feed. rewrite N. cbn [bind]. rewrite C, A. reflexivity.
Qed.

(** a declaration opens an entity with its first token and closes it with its
    last one *)
Definition runs (toks : list wk) (s : wstore) (p : store) (s' : wstore) (p' : store) : Prop :=
  exists w ks k e e1, toks = KWd w :: ks ++ [k] /\ open_entity w = Some e /\ goes ks e e1 /\
    krun [k] (Some e1) s p = Ok (None, s', p').

Lemma runs_intro : forall toks w ks k e e1 s p s' p', toks = KWd w :: ks ++ [k] -> open_entity w = Some e ->
  goes ks e e1 -> krun [k] (Some e1) s p = Ok (None, s', p') -> runs toks s p s' p'.
Proof. intros toks w ks k e e1 s p s' p' A B C D. exists w, ks, k, e, e1. auto. Qed.

Lemma defined_all : forall p0 p l, grows p0 p -> Forall (refers p0) l -> forallb (defined p) (map ref_of l) = true.
Proof.
  intros p0 p l G F. apply forallb_forall. intros x X. apply in_map_iff in X as (q & <- & Q).
  rewrite Forall_forall in F. destruct (F _ Q) as [_ D]. eapply defined_grows; eassumption.
Qed.
Lemma defined_bcs : forall p0 p l, grows p0 p -> Forall (fun b => refers p0 (fst b)) l ->
  forallb (fun x => defined p (bc_ref x)) (map bref l) = true.
Proof.
  intros p0 p l G F. apply forallb_forall. intros x X. apply in_map_iff in X as (b & <- & B).
  rewrite Forall_forall in F. destruct (F _ B) as [_ D]. eapply defined_grows; eassumption.
Qed.

Lemma request_added : forall q e acts bcs x y s, ~ In (Some q) (map rq_ref (w_requests s)) ->
  let r := mkRequest (Some q) e acts bcs x y true in
  add_entity s (ORequest r) = Ok (mkWstore (w_events s) (w_requests s ++ [r]) (w_beacons s) (w_config s)).
Proof.
  intros q e acts bcs x y s N r. subst r. cbn [add_entity rq_ref is_some negb].
  rewrite (no_ref _ rq_ref (w_requests s) q N). reflexivity.
Qed.

Lemma request_closes : forall p0 p q e acts bcs xs d, grows p0 p -> defined p q = true ->
  match e with Some e => defined p e = true | None => acts = [] end ->
  forallb (defined p) bcs = true -> forallb (action_defined p (length acts =? 1)) acts = true ->
  request_close (mkRequest (Some q) e acts bcs xs d false) p = Ok (mkRequest (Some q) e acts bcs [] RNothing true).
Proof.
  intros p0 p q e acts bcs xs d G D E B A. unfold request_close. cbn [rq_ref rq_err rq_actions rq_bcs].
  rewrite D. cbn [negb]. destruct e as [e|]; [rewrite E | subst acts]; cbn [negb nonempty]; rewrite B; cbn [negb];
    [rewrite A|]; reflexivity.
Qed.

Lemma starts_open : forall q, path_ok q -> starts q ->
  open_entity (fst q) = Some (ORequest (request_new (fst q))).
Proof.
  intros [w ws] [[W _] _] S. unfold starts in S. cbn [fst] in *. unfold open_entity.
  destruct (teqb w (txt "&config")) eqn:E; [apply teqb_eq in E; subst; discriminate|]. rewrite S. reflexivity.
Qed.

Lemma name_nonempty : forall w, name w -> w <> [].
Proof. intros w [W _]. destruct w; [destruct W | discriminate]. Qed.

(** the first word of a declaration opens its entity *)
Lemma krun_open : forall w ks e s p, open_entity w = Some e -> krun (KWd w :: ks) None s p = krun ks (Some e) s p.
Proof. intros w ks e s p O. cbn [krun ktok wstep]. rewrite O. cbn [Nat.eqb bind]. reflexivity. Qed.

Lemma runs_run : forall toks s p s' p', runs toks s p s' p' -> krun toks None s p = Ok (None, s', p').
Proof.
  intros toks s p s' p' (w & ks & k & e & e1 & -> & O & G & K).
  rewrite (krun_open w _ e s p O), krun_app, (goes_run _ _ _ G). exact K.
Qed.

(** a declaration cut in the middle leaves the stores alone *)
Lemma runs_cut : forall toks s p s' p' cut more, runs toks s p s' p' -> toks = cut ++ more -> more <> [] ->
  exists o, krun cut None s p = Ok (o, s, p).
Proof.
  intros toks s p s' p' cut more (w & ks & k & e & e1 & -> & O & G & K) E N.
  destruct cut as [|c cut]; [exists None; reflexivity|]. cbn [app] in E. injection E as <- E.
  rewrite (krun_open w _ e s p O).
  assert (P : exists ks', ks = cut ++ ks').
  { destruct (exists_last N) as (m & x & ->). rewrite app_assoc in E. apply app_inj_tail in E as [-> _].
    exists m. reflexivity. }
  destruct P as (ks' & ->). destruct (goes_prefix _ _ _ _ G) as (b & B). exists (Some b).
  apply (goes_run _ _ _ B).
Qed.

Lemma decl_run : forall p0 p s d, wdecl_ok p0 d -> grows p0 p -> fresh_in s d ->
  exists s' p', runs (wdecl_toks d) s p s' p' /\ grows p p' /\ adds s s' d.
Proof.
  intros p0 p s d O G (FR & FE & FB & FC).
  assert (DG : forall r, defined p0 r = true -> defined p r = true) by (intros r; apply defined_grows; exact G).
  destruct d as [es|q|q bs|q e acts|q bs|bs]; cbn [wdecl_ok says_request says_event says_beacon says_config] in *.
  - (* configuration *)
    destruct O as (O1 & O2 & O3 & O4).
    assert (NP : producers es <> [] /\ consumers es <> []).
    { assert (X : forall (b : bool), In (if b then 0 else 1) (map entry_kind es) ->
                  concat (flat_map (fun e => match e with CETargets b' ts => if Bool.eqb b b' then [ts] else [] | _ => [] end) es) <> []).
      { clear - O1. intros b K. induction es as [|e es IH]; [destruct K|]. inversion O1 as [|? ? E1 E2]; subst.
        cbn [map flat_map] in *. destruct K as [K|K].
        - destruct e as [b' ts|q|q]; [|destruct b; discriminate|destruct b; discriminate].
          destruct E1 as [E1 _]. destruct ts as [|t ts]; [congruence|].
          destruct b, b'; try discriminate.
        - specialize (IH E2 K). rewrite concat_app. intro Z. apply app_eq_nil in Z as [_ Z]. exact (IH Z). }
      split; [specialize (X true O3) | specialize (X false O4)]; intro Z; apply X; rewrite <- Z;
        unfold producers, consumers; f_equal; apply flat_map_ext; intros [[] ts|q|q]; reflexivity. }
    assert (SD : forall k, hd_error (selfs es) = Some k -> defined p0 k = true).
    { clear - O1. induction es as [|e es IH]; [discriminate|]. inversion O1 as [|? ? E1 E2]; subst.
      intros k K. destruct e as [b ts|q|q]; cbn in K; auto. injection K as <-. apply E1. }
    assert (AD : forall k, hd_error (assigneds es) = Some k -> defined p0 k = true).
    { clear - O1. induction es as [|e es IH]; [discriminate|]. inversion O1 as [|? ? E1 E2]; subst.
      intros k K. destruct e as [b ts|q|q]; cbn in K; auto. injection K as <-. apply E1. }
    set (c := mkConfig (producers es) (consumers es) (hd_error (selfs es)) (hd_error (assigneds es)) false [QWord] CNothing).
    assert (CL : exists c' p', config_close c p = Ok (c', p') /\
              cf_self c' = Some (hd (service "SelfKeyRequest") (selfs es)) /\
              cf_assigned c' = Some (hd (service "AssignedKey") (assigneds es)) /\
              cf_producer c' = producers es /\ cf_consumer c' = consumers es /\ cf_closed c' = true).
    { unfold config_close, close_keys. cbn [cf_self cf_assigned cf_producer cf_consumer c].
      destruct NP as [NP1 NP2].
      destruct (producers es) as [|t1 ts1]; [congruence|]. destruct (consumers es) as [|t2 ts2]; [congruence|].
      destruct (selfs es) as [|k ks]; cbn [hd_error hd] in *.
      - cbn [bind]. destruct (assigneds es) as [|k2 ks2]; cbn [hd_error hd] in *.
        + cbn [bind]. eexists _, _. split; [reflexivity|]. repeat split; reflexivity.
        + assert (D2 : defined (add_service_struct (add_service_struct p (txt "SelfKeyRequest") [str_field "uuid" true])
                                 (txt "SelfKeyResponse") [str_field "uuid" false]) k2 = true).
          { eapply defined_grows; [|apply DG, AD; reflexivity].
            eapply grows_trans; apply service_grows. }
          rewrite D2. cbn [bind]. eexists _, _. split; [reflexivity|]. repeat split; reflexivity.
      - rewrite (DG k (SD k eq_refl)). cbn [bind]. destruct (assigneds es) as [|k2 ks2]; cbn [hd_error hd] in *.
        + cbn [bind]. eexists _, _. split; [reflexivity|]. repeat split; reflexivity.
        + assert (D2 : defined (add_service_struct p (txt "SelfKeyResponse") [str_field "uuid" false]) k2 = true).
          { eapply defined_grows; [|apply DG, AD; reflexivity]. apply service_grows. }
          rewrite D2. cbn [bind]. eexists _, _. split; [reflexivity|]. repeat split; reflexivity. }
    destruct CL as (c' & p' & CL & C1 & C2 & C3 & C4 & C5).
    assert (NC : w_config s = None) by (apply FC; discriminate).
    exists (mkWstore (w_events s) (w_requests s) (w_beacons s) (Some c')), p'.
    split; [|split; [apply (config_close_ok _ _ _ _ CL)|]].
    + cbn [wdecl_toks app]. rewrite app_assoc. eapply runs_intro; [reflexivity | reflexivity | |].
      * eapply goes_app; [|apply (entries_go p0 es [] O1 O2)]. apply goes_one; [|reflexivity]. intro p1. reflexivity.
      * eapply krun_close; [| |].
        -- cbn [app cfg after entity_next ktok]. change (symbol "}" 1) with (WClose 1). cbn [config_next].
           fold c. rewrite CL. reflexivity.
        -- exact C5.
        -- cbn [add_entity]. rewrite NC. reflexivity.
    + unfold adds, config_said. cbn [w_requests w_events w_beacons w_config says_request says_event says_beacon says_config].
      rewrite NC, !app_nil_r. repeat split. cbn [app].
      unfold config_view. rewrite C1, C2, C3, C4. reflexivity.
  - (* A.B; *)
    destruct O as ((O1 & O2) & O3 & O4).
    assert (NI : ~ In (Some (ref_of q)) (map rq_ref (w_requests s))) by (apply (FR _ (or_introl eq_refl))).
    eexists _, p. split; [|split; [apply grows_refl|]].
    + cbn [wdecl_toks]. unfold path_toks. cbn [app].
      eapply runs_intro; [reflexivity | apply (starts_open q O1 O3) | |].
      * unfold request_new. apply (more_goes _ _ rq_holds (snd q) (fst q) [QWord; QDot; QExcl]);
          [apply name_nonempty, O1 | reflexivity].
      * eapply krun_close; [| |apply request_added; exact NI].
        -- destruct (snd q) as [|w ws] eqn:SQ; [congruence|]. rewrite <- SQ. fold (ref_of q).
           change (ktok (KSym ";")) with (WSemi 1). cbn [entity_next rq_at request_next rq_exp rq_pend].
           change (expects [QWord; QDot; QSemi; QExcl; QOpen] QSemi) with true. cbv iota.
           rewrite (ref_nonempty q O1). cbn [rq_err rq_actions rq_bcs rq_closed].
           rewrite (request_closes p0 p) by (auto; reflexivity). reflexivity.
        -- reflexivity.
    + unfold adds, config_said. cbn [w_requests w_events w_beacons w_config says_request says_event says_beacon says_config].
      rewrite map_app, !app_nil_r. repeat split.
  - (* A.B { > C.D; } *)
    destruct O as ((O1 & O2) & O3 & O4 & O5 & O6).
    assert (NI : ~ In (Some (ref_of q)) (map rq_ref (w_requests s))) by (apply (FR _ (or_introl eq_refl))).
    assert (PB : Forall path_ok bs) by (eapply Forall_impl; [|exact O6]; intros b [X _]; exact X).
    eexists _, p. split; [|split; [apply grows_refl|]].
    + cbn [wdecl_toks]. unfold path_toks. cbn [app].
      rewrite !app_assoc. eapply runs_intro; [reflexivity | apply (starts_open q O1 O3) | |].
      * eapply goes_app; [eapply goes_app|].
        -- unfold request_new. apply (more_goes _ _ rq_holds (snd q) (fst q) [QWord; QDot; QExcl]);
             [apply name_nonempty, O1 | reflexivity].
        -- apply (goes_one _ _ (ORequest (mkRequest (Some (ref_of q)) None [] [] [QArrow] RNothing false))); [|reflexivity].
           intro p1. destruct (snd q) as [|w ws] eqn:SQ; [congruence|]. rewrite <- SQ. fold (ref_of q).
           cbn. rewrite (ref_nonempty q O1). reflexivity.
        -- apply (rbcs_go (ref_of q) bs [] [QArrow] PB). reflexivity.
      * eapply krun_close; [| |apply request_added; exact NI].
        -- destruct bs as [|b bs]; [congruence|].
           change (ktok (KSym "}")) with (WClose 1). cbn [entity_next request_next rq_exp rq_pend].
           change (expects [QArrow; QClose] QClose) with true. cbv iota.
           rewrite (request_closes p0 p); auto; [reflexivity|]. apply (defined_all p0 p _ G O6).
        -- reflexivity.
    + unfold adds, config_said. cbn [w_requests w_events w_beacons w_config says_request says_event says_beacon says_config].
      rewrite map_app, !app_nil_r. repeat split.
  - (* A.B !C.D { ( .. ) } *)
    destruct O as ((O1 & O2) & O3 & (O4 & O5) & O6 & O7).
    assert (NI : ~ In (Some (ref_of q)) (map rq_ref (w_requests s))) by (apply (FR _ (or_introl eq_refl))).
    destruct (actions_go p0 (ref_of q) (ref_of e) _ acts [] _ (BT_first _ _) O7) as (r' & AG & AB). cbn [app] in AB.
    eexists _, p. split; [|split; [apply grows_refl|]].
    + cbn [wdecl_toks]. unfold path_toks at 1. cbn [app].
      rewrite !app_assoc. eapply runs_intro; [reflexivity | apply (starts_open q O1 O3) | |].
      * eapply goes_app; [eapply goes_app; [eapply goes_app; [eapply goes_app|]|]|exact AG].
        -- unfold request_new. apply (more_goes _ _ rq_holds (snd q) (fst q) [QWord; QDot; QExcl]);
             [apply name_nonempty, O1 | reflexivity].
        -- apply (goes_one _ _ (re_at (ref_of q) [] [QWord])); [|reflexivity].
           intro p1. unfold ref_of. destruct (snd q) as [|w ws]; reflexivity.
        -- apply (path_goes _ _ e _ (re_holds (ref_of q)) O4). reflexivity.
        -- apply goes_one; [|reflexivity]. intro p1. reflexivity.
      * eapply (krun_close _ _ _ _ (ORequest (mkRequest (Some (ref_of q)) (Some (ref_of e)) (map action_of acts) [] [] RNothing true)));
          [| |apply request_added; exact NI].
        -- assert (AO : forallb (action_defined p (length (map action_of acts) =? 1)) (map action_of acts) = true).
           { rewrite map_length. apply forallb_forall. intros a A. apply in_map_iff in A as (d & <- & D).
             rewrite Forall_forall in O7. destruct (O7 _ D) as (A1 & (A2 & A3) & A4 & A5).
             unfold action_defined, action_of. cbn [ac_concl ac_resp ac_bcs]. rewrite (DG _ A3), (defined_bcs p0 p _ G A4).
             rewrite !andb_true_r. destruct (ad_concl d) as [cc|]; [reflexivity|]. destruct A1 as [A1 _].
             cbn [is_some orb]. apply Nat.ltb_ge in A1. apply Nat.eqb_eq.
             destruct acts as [|a0 acts]; [destruct D|]. cbn [length] in *. lia. }
           assert (RC : forall xs dd, request_close (mid (ref_of q) (ref_of e) (map action_of acts) xs dd) p =
                     Ok (mkRequest (Some (ref_of q)) (Some (ref_of e)) (map action_of acts) [] [] RNothing true)).
           { intros xs dd. unfold mid. apply (request_closes p0 p); auto. }
           assert (NE : map action_of acts <> []) by (destruct acts; [congruence | discriminate]).
           change (ktok (KSym "}")) with (WClose 1).
           destruct AB as [|done|done a V]; [congruence| |]; cbn [entity_next request_next mid rq_exp rq_pend].
           ++ change (expects [QClose; QOpenB] QClose) with true. cbv iota. rewrite RC. reflexivity.
           ++ change (expects [QClose; QOpenB; QArrow] QClose) with true. cbv iota. rewrite V.
              pose proof (RC [QClose; QOpenB; QArrow] (RAction a)) as RC1. unfold mid in RC1.
              unfold r_action, mid. cbn [rq_ref rq_err rq_actions rq_bcs rq_exp rq_pend rq_closed].
              rewrite RC1. reflexivity.
        -- reflexivity.
    + unfold adds, config_said. cbn [w_requests w_events w_beacons w_config says_request says_event says_beacon says_config].
      rewrite map_app, !app_nil_r. repeat split. cbn [map]. unfold request_view at 2. cbn [rq_ref rq_err rq_actions rq_bcs].
      rewrite map_map. reflexivity.
  - (* @A.B { > C.D; } *)
    destruct O as (O1 & O2 & O3 & O4 & O5).
    assert (NI : ~ In (Some (ref_of q)) (map ev_ref (w_events s))) by (apply (FE _ (or_introl eq_refl))).
    assert (PB : Forall (fun b => path_ok (fst b)) bs) by (eapply Forall_impl; [|exact O5]; intros b [X _]; exact X).
    assert (OE : open_entity ("@"%char :: fst q) = Some (OEvent (event_new (fst q)))).
    { unfold open_entity. destruct (teqb ("@"%char :: fst q) (txt "&config")) eqn:E1; [apply teqb_eq in E1; discriminate|].
      change (forallb is_alnum ("@"%char :: fst q)) with false. cbv iota.
      destruct (teqb ("@"%char :: fst q) (txt "@beacons")) eqn:E2; [|reflexivity].
      apply teqb_eq in E2. elim O3. change (txt "@beacons") with ("@"%char :: txt "beacons") in E2. congruence. }
    eexists _, p. split; [|split; [apply grows_refl|]].
    + cbn [wdecl_toks]. rewrite !app_assoc. eapply runs_intro; [reflexivity | exact OE | |].
      * eapply goes_app; [eapply goes_app|].
        -- unfold event_new. apply (more_goes _ _ (ev_holds []) (snd q) (fst q) [QWord; QDot; QOpen]);
             [apply name_nonempty, O1 | reflexivity].
        -- apply (goes_one _ _ (OEvent (mkEvent (Some (ref_of q)) [] [QArrow] ENothing false))); [|reflexivity].
           intro p1. fold (ref_of q). pose proof (ref_nonempty q O1) as NE.
           destruct (snd q) as [|w ws]; cbn; rewrite NE; reflexivity.
        -- apply (ebcs_go (ref_of q) bs [] [QArrow] PB). reflexivity.
      * eapply (krun_close _ _ _ _ (OEvent (mkEvent (Some (ref_of q)) (map bref bs) [] ENothing true))).
        -- destruct bs as [|b bs]; [congruence|].
           change (ktok (KSym "}")) with (WClose 1). cbn [entity_next event_next ev_exp ev_pend ev_ref is_some].
           change (expects [QArrow; QClose] QClose) with true. cbv iota.
           unfold event_close. cbn [ev_ref ev_list]. change ([] ++ map bref (b :: bs)) with (map bref (b :: bs)). rewrite (defined_bcs p0 p _ G O5).
           assert (ED : negb (default_event (ref_of q)) && negb (defined p (ref_of q)) = false).
           { destruct O2 as [O2|O2]; [rewrite O2; reflexivity|]. rewrite (DG _ O2). apply andb_false_r. }
           rewrite ED. reflexivity.
        -- reflexivity.
        -- cbn [add_entity ev_ref is_some negb]. rewrite (no_ref _ ev_ref (w_events s) _ NI). reflexivity.
    + unfold adds, config_said. cbn [w_requests w_events w_beacons w_config says_request says_event says_beacon says_config].
      rewrite map_app, !app_nil_r. repeat split.
  - (* @beacons { > A.B; } *)
    destruct O as (O1 & O2).
    assert (PB : Forall path_ok bs) by (eapply Forall_impl; [|exact O2]; intros b [X _]; exact X).
    eexists _, p. split; [|split; [apply grows_refl|]].
    + cbn [wdecl_toks app]. rewrite app_assoc. eapply runs_intro; [reflexivity | reflexivity | |].
      * eapply goes_app; [|apply (beacons_go bs [] [QArrow] PB); reflexivity]. apply goes_one; [|reflexivity]. intro p1. reflexivity.
      * eapply (krun_close _ _ _ _ (OBeacons (mkBeacons (map (fun q => mkBroadcast (ref_of q) false) bs) [] None true))).
        -- destruct bs as [|b bs]; [congruence|].
           change (ktok (KSym "}")) with (WClose 1). cbn [entity_next beacons_next bs_exp bs_pend].
           change (expects [QArrow; QClose] QClose) with true. cbv iota.
           unfold beacons_close. cbn [bs_list].
           assert (E : forallb (fun x => defined p (bc_ref x)) ([] ++ map (fun q => mkBroadcast (ref_of q) false) (b :: bs)) = true).
           { cbn [app]. pose proof (defined_all p0 p _ G O2) as D. clear - D. rewrite forallb_forall in *.
             intros x X. apply in_map_iff in X as (q & <- & Q). apply D. cbn [bc_ref]. apply in_map. exact Q. }
           rewrite E. reflexivity.
        -- reflexivity.
        -- cbn [add_entity bs_list]. rewrite add_beacons_fresh by exact FB. reflexivity.
    + unfold adds, config_said. cbn [w_requests w_events w_beacons w_config says_request says_event says_beacon says_config].
      rewrite !app_nil_r. repeat split.
Qed.

(** ** A whole file *)

(** [s] holds what [ds] says *)
Definition holds_said (s : wstore) (ds : list wdecl) : Prop :=
  map request_view (w_requests s) = flat_map says_request ds /\
  map event_view (w_events s) = flat_map says_event ds /\
  w_beacons s = flat_map says_beacon ds /\
  config_said s = flat_map says_config ds.

Lemma view_names : forall rs, map rq_ref rs = map request_name (map request_view rs).
Proof. intro rs. rewrite map_map. reflexivity. Qed.
Lemma view_events : forall es, map ev_ref es = map fst (map event_view es).
Proof. intro es. rewrite map_map. reflexivity. Qed.

Lemma NoDup_app_l : forall (A : Type) (l m : list A), NoDup (l ++ m) -> NoDup l.
Proof.
  induction l as [|x l IH]; intros m N; [constructor|]. cbn [app] in N. inversion N; subst.
  constructor; [|eapply IH; eassumption]. intro K. apply H1, in_or_app. left. exact K.
Qed.
Lemma NoDup_app_not : forall (A : Type) (l m : list A) x, NoDup (l ++ m) -> In x m -> ~ In x l.
Proof.
  induction l as [|y l IH]; intros m x N M K; [destruct K|]. cbn [app] in N. inversion N; subst.
  destruct K as [<-|K]; [apply H1, in_or_app; right; exact M | exact (IH m x H2 M K)].
Qed.

Lemma fresh_said : forall s ds0 d ds, holds_said s ds0 ->
  NoDup (map request_name (flat_map says_request (ds0 ++ d :: ds))) ->
  NoDup (map fst (flat_map says_event (ds0 ++ d :: ds))) ->
  NoDup (map bc_ref (flat_map says_beacon (ds0 ++ d :: ds))) ->
  length (flat_map says_config (ds0 ++ d :: ds)) <= 1 -> fresh_in s d.
Proof.
  intros s ds0 d ds (S1 & S2 & S3 & S4) N1 N2 N3 N4.
  rewrite flat_map_app in N1, N2, N3, N4. rewrite map_app in N1, N2, N3. cbn [flat_map] in N1, N2, N3, N4.
  split; [|split; [|split]].
  - intros r R. rewrite view_names, S1. apply (NoDup_app_not _ _ _ _ N1). rewrite map_app. apply in_or_app. left.
    apply in_map. exact R.
  - intros e E. rewrite view_events, S2. apply (NoDup_app_not _ _ _ _ N2). rewrite map_app. apply in_or_app. left.
    apply in_map. exact E.
  - rewrite S3. rewrite map_app, app_assoc in N3. apply NoDup_app_l in N3. exact N3.
  - intro K. destruct (says_config d) as [|c cs]; [congruence|]. rewrite app_length in N4. cbn [app length] in N4.
    unfold config_said in S4. destruct (w_config s) as [c0|]; [|reflexivity]. rewrite <- S4 in N4. cbn [length] in N4. lia.
Qed.

Lemma decls_run : forall p0 ds ds0 s p, Forall (wdecl_ok p0) ds -> grows p0 p -> holds_said s ds0 ->
  NoDup (map request_name (flat_map says_request (ds0 ++ ds))) ->
  NoDup (map fst (flat_map says_event (ds0 ++ ds))) ->
  NoDup (map bc_ref (flat_map says_beacon (ds0 ++ ds))) ->
  length (flat_map says_config (ds0 ++ ds)) <= 1 ->
  exists s' p', krun (wdecls_toks ds) None s p = Ok (None, s', p') /\ grows p p' /\ holds_said s' (ds0 ++ ds).
Proof.
  intros p0. induction ds as [|d ds IH]; intros ds0 s p F G S N1 N2 N3 N4.
  - exists s, p. rewrite app_nil_r in *. split; [reflexivity|]. split; [apply grows_refl | exact S].
  - inversion F as [|? ? F1 F2]; subst. destruct S as (S1 & S2 & S3 & S4).
    pose proof (fresh_said s ds0 d ds (conj S1 (conj S2 (conj S3 S4))) N1 N2 N3 N4) as FR.
    destruct (decl_run p0 p s d F1 G FR) as (s1 & p1 & K1 & G1 & A1 & A2 & A3 & A4).
    assert (S' : holds_said s1 (ds0 ++ [d])).
    { unfold holds_said. rewrite !flat_map_app. cbn [flat_map]. rewrite !app_nil_r, A1, A2, A3, A4, S1, S2, S3, S4.
      repeat split. }
    replace (ds0 ++ d :: ds) with ((ds0 ++ [d]) ++ ds) in * by (rewrite <- app_assoc; reflexivity).
    destruct (IH (ds0 ++ [d]) s1 p1 F2 (grows_trans _ _ _ G G1) S' N1 N2 N3 N4) as (s2 & p2 & K2 & G2 & S2').
    exists s2, p2. split; [|split; [exact (grows_trans _ _ _ G1 G2) | exact S2']].
    cbn [wdecls_toks flat_map]. rewrite krun_app, (runs_run _ _ _ _ _ K1). cbn [bind]. exact K2.
Qed.

Lemma request_exists_not : forall rs r, (forall x, In x rs -> rq_ref x <> None) -> ~ In (Some r) (map rq_ref rs) ->
  request_exists rs r = Ok false.
Proof.
  induction rs as [|x rs IH]; intros r N K; [reflexivity|]. cbn [request_exists].
  destruct (rq_ref x) as [q|] eqn:E; [|elim (N x (or_introl eq_refl) E)].
  destruct (teqb q r) eqn:T.
  - apply teqb_eq in T. subst q. elim K. left. exact E.
  - apply IH; [intros y Y; apply N; right; exact Y|]. intro J. apply K. right. exact J.
Qed.

Lemma validate_ok : forall rs bs, (forall x, In x rs -> rq_ref x <> None) ->
  (forall b, In b bs -> ~ In (Some (bc_ref b)) (map rq_ref rs)) -> validate rs bs = Ok tt.
Proof.
  intros rs. induction bs as [|b bs IH]; intros N K; [reflexivity|]. cbn [validate].
  rewrite request_exists_not; [|exact N|apply K; left; reflexivity]. cbn [bind]. apply IH; [exact N|].
  intros b' B. apply K. right. exact B.
Qed.

Lemma says_named : forall ds r, In r (flat_map says_request ds) -> request_name r <> None.
Proof.
  intros ds r H. apply in_flat_map in H as (d & _ & D). destruct d; cbn [says_request] in D;
    try (destruct D; fail); destruct D as [<-|[]]; discriminate.
Qed.

Lemma said_valid : forall s ds, holds_said s ds ->
  (forall b, In b (flat_map says_beacon ds) ->
     ~ In (Some (bc_ref b)) (map request_name (flat_map says_request ds))) ->
  validate (w_requests s) (w_beacons s) = Ok tt.
Proof.
  intros s ds (S1 & S2 & S3 & S4) W. apply validate_ok.
  - intros x X E. apply (in_map request_view) in X. rewrite S1 in X. exact (says_named _ _ X E).
  - intros b B. rewrite view_names, S1. apply W. rewrite <- S3. exact B.
Qed.

Lemma workflow_parsed : forall p ds t fuel, workflow_ok p ds -> wlayout (wdecls_toks ds) t ->
  length (wdecls_toks ds) < fuel ->
  exists s p', wparse fuel t p = WAccepted s p' /\ grows p p' /\ holds_said s ds.
Proof.
  intros p ds t fuel (W1 & W2 & W3 & W4 & W5 & W6) L F.
  destruct (decls_run p ds [] wstore_new p W1 (grows_refl p)) as (s & p' & K & G & S); auto.
  { repeat split. }
  cbn [app] in S. exists s, p'. split; [|split; [exact G | exact S]].
  unfold wparse. rewrite (wrun_layout _ _ L) by exact F. rewrite K.
  rewrite (said_valid s ds S W6). reflexivity.
Qed.

(** a file cut inside its last declaration *)
Lemma workflow_cut : forall p ds d cut more t fuel, workflow_ok p (ds ++ [d]) -> wdecl_toks d = cut ++ more ->
  more <> [] -> wlayout (wdecls_toks ds ++ cut) t -> length (wdecls_toks ds ++ cut) < fuel ->
  exists s p', wparse fuel t p = WAccepted s p' /\ grows p p' /\ holds_said s ds.
Proof.
  intros p ds d cut more t fuel (W1 & W2 & W3 & W4 & W5 & W6) E N L F.
  apply Forall_app in W1 as [W1 WD]. inversion WD as [|? ? WD1 _]; subst.
  assert (SUB : forall (A : Type) (f : wdecl -> list A), flat_map f (ds ++ [d]) = flat_map f ds ++ f d).
  { intros A f. rewrite flat_map_app. cbn [flat_map]. rewrite app_nil_r. reflexivity. }
  destruct (decls_run p ds [] wstore_new p W1 (grows_refl p)) as (s & p' & K & G & S); cbn [app].
  - repeat split.
  - rewrite SUB, map_app in W2. eapply NoDup_app_l. exact W2.
  - rewrite SUB, map_app in W3. eapply NoDup_app_l. exact W3.
  - rewrite SUB, map_app in W4. eapply NoDup_app_l. exact W4.
  - rewrite SUB, app_length in W5. lia.
  - cbn [app] in S. pose proof (fresh_said s ds d [] S W2 W3 W4 W5) as FR.
    destruct (decl_run p p' s d WD1 G FR) as (s1 & p1 & R & _ & _).
    destruct (runs_cut _ _ _ _ _ _ _ R E N) as (o & C).
    exists s, p'. split; [|split; [exact G | exact S]].
    unfold wparse. rewrite (wrun_layout _ _ L) by exact F. rewrite krun_app, K. cbn [bind]. rewrite C.
    rewrite (said_valid s ds S); [reflexivity|]. intros b B J. rewrite !SUB in W6. rewrite map_app in W6.
    apply (W6 b); apply in_or_app; left; assumption.
Qed.

(** ** Deciding layouts, for examples *)

Fixpoint skip_gap (comment : bool) (t : text) : text :=
  match t with
  | [] => []
  | c :: t' =>
    if comment then skip_gap (negb (Ascii.eqb c lf)) t'
    else if Ascii.eqb c "#" then skip_gap true t'
    else if is_ws c then skip_gap false t'
    else t
  end.

(** ASCII comments only, and all of them end with their line *)
Fixpoint clean (comment : bool) (t : text) : bool :=
  match t with
  | [] => negb comment
  | c :: t => is_ascii c && clean (if comment then negb (Ascii.eqb c lf) else Ascii.eqb c "#") t
  end.

Fixpoint lstrip (w t : text) : option text :=
  match w, t with
  | [], _ => Some t
  | c :: w, d :: t => if Ascii.eqb c d then lstrip w t else None
  | _ :: _, [] => None
  end.

Definition widentb (w : text) : bool :=
  match w with
  | [] => false
  | c :: r => negb (is_digit c) && (word_char c || Ascii.eqb c "@" || Ascii.eqb c "&") && forallb word_char r
  end.
Definition apartb (t : text) : bool := match t with [] => false | c :: _ => ender c || Ascii.eqb c "#" end.

Fixpoint lays (ks : list wk) (t : text) : bool :=
  match ks with
  | [] => match skip_gap false t with [] => true | _ => false end
  | KWd w :: ks =>
    match lstrip w (skip_gap false t) with
    | Some rest => widentb w && apartb rest && lays ks rest
    | None => false
    end
  | KSym c :: ks =>
    match skip_gap false t with
    | d :: rest => Ascii.eqb c d && is_wbreak c && lays ks rest
    | [] => false
    end
  end.

Lemma skip_gap_ok : forall t, clean false t = true -> exists g, t = g ++ skip_gap false t /\ gap g /\
  clean false (skip_gap false t) = true.
Proof.
  assert (X : forall t, (clean false t = true -> exists g, t = g ++ skip_gap false t /\ gap g /\
                clean false (skip_gap false t) = true) /\
              (clean true t = true -> exists body g, t = body ++ lf :: g ++ skip_gap true t /\ gap g /\
                Forall (fun c => c <> lf /\ is_ascii c = true) body /\ clean false (skip_gap true t) = true)).
  { induction t as [|c t [IH1 IH2]]; [split; [intros _; exists []; repeat split; constructor | discriminate]|].
    split; intro C; cbn [clean] in C; apply andb_true_iff in C as [A C]; cbn [skip_gap].
    - destruct (Ascii.eqb c "#") eqn:H.
      + apply Ascii.eqb_eq in H. subst c. destruct (IH2 C) as (body & g & E & G & F & K).
        exists ("#"%char :: body ++ lf :: g). split; [|split; [constructor; assumption | exact K]].
        cbn [app]. rewrite <- app_assoc. cbn [app]. rewrite <- E. reflexivity.
      + destruct (is_ws c) eqn:W.
        * destruct (IH1 C) as (g & E & G & K). exists (c :: g). split; [cbn [app]; rewrite <- E; reflexivity|].
          split; [constructor; assumption | exact K].
        * exists []. split; [reflexivity|]. split; [constructor|]. cbn [clean]. rewrite A, H. exact C.
    - destruct (Ascii.eqb c lf) eqn:H; cbn [negb] in *.
      + apply Ascii.eqb_eq in H. subst c. destruct (IH1 C) as (g & E & G & K). exists [], g.
        split; [cbn [app]; rewrite <- E; reflexivity|]. split; [exact G|]. split; [constructor | exact K].
      + destruct (IH2 C) as (body & g & E & G & F & K). exists (c :: body), g.
        split; [cbn [app]; rewrite <- E; reflexivity|]. split; [exact G|].
        split; [constructor; [split; [apply Ascii.eqb_neq; exact H | exact A] | exact F] | exact K]. }
  intros t C. apply X. exact C.
Qed.

Lemma lstrip_ok : forall w t rest, lstrip w t = Some rest -> t = w ++ rest.
Proof.
  induction w as [|c w IH]; intros t rest H; cbn [lstrip] in H; [cbn [app]; congruence|].
  destruct t as [|d t]; [discriminate|]. destruct (Ascii.eqb c d) eqn:E; [|discriminate].
  apply Ascii.eqb_eq in E. subst d. cbn [app]. f_equal. apply IH. exact H.
Qed.

Lemma clean_app : forall w t, forallb (fun c => negb (Ascii.eqb c "#")) w = true ->
  clean false (w ++ t) = true -> clean false t = true.
Proof.
  induction w as [|c w IH]; intros t N H; [exact H|]. cbn [app clean forallb] in *.
  apply andb_true_iff in N as [N1 N2]. apply andb_true_iff in H as [_ H]. apply IH; [exact N2|].
  destruct (Ascii.eqb c "#"); [discriminate | exact H].
Qed.

Lemma widentb_ok : forall w, widentb w = true -> wident w /\ forallb (fun c => negb (Ascii.eqb c "#")) w = true.
Proof.
  intros [|c r] H; [discriminate|]. cbn [widentb] in H. apply andb_true_iff in H as [H F]. apply andb_true_iff in H as [D C].
  assert (WC : forall x, word_char x = true -> negb (Ascii.eqb x "#") = true).
  { intros x X. destruct (Ascii.eqb x "#") eqn:E; [apply Ascii.eqb_eq in E; subst; discriminate | reflexivity]. }
  split.
  - cbn [wident]. split; [destruct (is_digit c); [discriminate | reflexivity]|].
    split; [|apply forallb_Forall; exact F].
    apply orb_true_iff in C as [C|C]; [apply orb_true_iff in C as [C|C]; [left; exact C|]|];
      right; [left | right]; apply Ascii.eqb_eq; exact C.
  - cbn [forallb]. apply andb_true_iff. split.
    + apply orb_true_iff in C as [C|C]; [apply orb_true_iff in C as [C|C]; [apply WC; exact C|]|];
        apply Ascii.eqb_eq in C; subst; reflexivity.
    + rewrite forallb_forall in *. intros x X. apply WC, F, X.
Qed.

Lemma lays_ok : forall ks t, clean false t = true -> lays ks t = true -> wlayout ks t.
Proof.
  induction ks as [|k ks IH]; intros t C H; cbn [lays] in H.
  - destruct (skip_gap_ok t C) as (g & E & G & _). destruct (skip_gap false t); [|discriminate].
    rewrite app_nil_r in E. subst t. constructor. exact G.
  - destruct (skip_gap_ok t C) as (g & E & G & K). destruct k as [w|c].
    + destruct (lstrip w (skip_gap false t)) as [rest|] eqn:S; [|discriminate]. apply lstrip_ok in S. rewrite S in E, K.
      apply andb_true_iff in H as [H L]. apply andb_true_iff in H as [W A]. apply widentb_ok in W as [W1 W2].
      rewrite E. constructor; auto.
      * destruct rest as [|c rest]; [discriminate|]. cbn [apartb apart] in *. apply orb_true_iff in A as [A|A]; [left; exact A|].
        right. apply Ascii.eqb_eq. exact A.
      * apply IH; [eapply clean_app; eassumption | exact L].
    + destruct (skip_gap false t) as [|d rest]; [discriminate|]. apply andb_true_iff in H as [H L].
      apply andb_true_iff in H as [H B]. apply Ascii.eqb_eq in H. subst d. rewrite E. constructor; auto.
      apply IH; [|exact L]. apply (clean_app [c]); [|exact K]. cbn [forallb].
      destruct (Ascii.eqb c "#") eqn:Z; [apply Ascii.eqb_eq in Z; subst; discriminate | reflexivity].
Qed.
