(** The parser performs exactly the store operations of the declaration tree
    it reads, whatever the layout. *)
From Coq Require Import String Ascii NArith List Arith Lia Bool.
From Verif Require Import Bytes ProtoModel ProtoProofs ProtoInv ProtoRun ProtoGrammar.
Import ListNotations.
Close Scope string_scope.
Open Scope list_scope.
Open Scope nat_scope.

Definition reach (t : text) (xs : list expect) (s : store) (t' : text) (xs' : list expect) (s' : store) : Prop :=
  exists k, forall F, run (k + F) t xs s 0 = run F t' xs' s' 0.

Lemma reach_refl : forall t xs s, reach t xs s t xs s.
Proof. intros. exists 0. reflexivity. Qed.

Lemma reach_trans : forall t xs s t1 xs1 s1 t2 xs2 s2,
  reach t xs s t1 xs1 s1 -> reach t1 xs1 s1 t2 xs2 s2 -> reach t xs s t2 xs2 s2.
Proof.
  intros t xs s t1 xs1 s1 t2 xs2 s2 [k K] [l L]. exists (k + l). intro F.
  rewrite <- Nat.add_assoc, K, L. reflexivity.
Qed.

Lemma reach_step : forall t xs s k xs' s' off, lex t [] 0 = Ok k -> act k xs s 0 = AGo xs' s' 0 off ->
  reach t xs s (skipn off t) xs' s'.
Proof. intros t xs s k xs' s' off L A. exists 1. intro F. cbn [Nat.add run]. rewrite L, A. reflexivity. Qed.

(** tokens [ks] lead from one state to another, whatever follows; in the second
    form what follows must not be a semicolon.  The invariant is kept. *)
Definition keeps (xs : list expect) (s : store) (xs' : list expect) (s' : store) : Prop :=
  inv s -> link xs s -> inv s' /\ link xs' s' /\ grows s s'.

Lemma keeps_refl : forall xs s, keeps xs s xs s.
Proof. intros xs s I L. split; [exact I|]. split; [exact L | apply grows_refl]. Qed.

Lemma keeps_trans : forall xs s xs1 s1 xs2 s2, keeps xs s xs1 s1 -> keeps xs1 s1 xs2 s2 -> keeps xs s xs2 s2.
Proof.
  intros xs s xs1 s1 xs2 s2 A B I L. destruct (A I L) as (I1 & L1 & G1). destruct (B I1 L1) as (I2 & L2 & G2).
  split; [exact I2|]. split; [exact L2 | eapply grows_trans; eauto].
Qed.

Lemma act_keeps : forall t xs s xs' s' n off, act t xs s 0 = AGo xs' s' n off -> keeps xs s xs' s'.
Proof.
  intros t xs s xs' s' n off A I L. pose proof (act_ok t xs s 0 I L) as K. rewrite A in K.
  destruct K as (K1 & K2 & K3 & _). auto.
Qed.

Definition proc (ks : list ptok) (xs : list expect) (s : store) (xs' : list expect) (s' : store) : Prop :=
  (forall more t, layout (ks ++ more) t -> exists t', layout more t' /\ reach t xs s t' xs' s') /\
  keeps xs s xs' s'.

Definition no_semi (ks : list ptok) : Prop := forall ks', ks <> KSemi :: ks'.
Definition proc_ns (ks : list ptok) (xs : list expect) (s : store) (xs' : list expect) (s' : store) : Prop :=
  (forall more t, no_semi more -> layout (ks ++ more) t ->
   exists t', layout more t' /\ reach t xs s t' xs' s') /\
  keeps xs s xs' s'.

Lemma proc_nil : forall xs s, proc [] xs s xs s.
Proof. intros xs s. split; [|apply keeps_refl]. intros more t L. exists t. split; [exact L | apply reach_refl]. Qed.

Lemma proc_app : forall a b xs s xs1 s1 xs2 s2,
  proc a xs s xs1 s1 -> proc b xs1 s1 xs2 s2 -> proc (a ++ b) xs s xs2 s2.
Proof.
  intros a b xs s xs1 s1 xs2 s2 [A KA] [B KB]. split; [|eapply keeps_trans; eauto].
  intros more t L. rewrite <- app_assoc in L.
  destruct (A _ _ L) as (t1 & L1 & R1). destruct (B _ _ L1) as (t2 & L2 & R2).
  exists t2. split; [exact L2 | eapply reach_trans; eauto].
Qed.

Lemma proc_cons : forall k b xs s xs1 s1 xs2 s2,
  proc [k] xs s xs1 s1 -> proc b xs1 s1 xs2 s2 -> proc (k :: b) xs s xs2 s2.
Proof. intros k b xs s xs1 s1 xs2 s2 A B. apply (proc_app [k] b _ _ _ _ _ _ A B). Qed.

Lemma no_semi_app : forall a b, no_semi a -> a <> [] -> no_semi (a ++ b).
Proof. intros [|k a] b N E ks'; [congruence|]. intros [= -> _]. apply (N a). reflexivity. Qed.

Lemma proc_ns_app : forall a b xs s xs1 s1 xs2 s2, no_semi b -> b <> [] ->
  proc_ns a xs s xs1 s1 -> proc b xs1 s1 xs2 s2 -> proc (a ++ b) xs s xs2 s2.
Proof.
  intros a b xs s xs1 s1 xs2 s2 N E [A KA] [B KB]. split; [|eapply keeps_trans; eauto].
  intros more t L. rewrite <- app_assoc in L.
  destruct (A (b ++ more) t) as (t1 & L1 & R1); [apply no_semi_app; auto | exact L|].
  destruct (B _ _ L1) as (t2 & L2 & R2). exists t2. split; [exact L2 | eapply reach_trans; eauto].
Qed.

Lemma proc_ns_ns_app : forall a b xs s xs1 s1 xs2 s2, no_semi b -> b <> [] ->
  proc_ns a xs s xs1 s1 -> proc_ns b xs1 s1 xs2 s2 -> proc_ns (a ++ b) xs s xs2 s2.
Proof.
  intros a b xs s xs1 s1 xs2 s2 N E [A KA] [B KB]. split; [|eapply keeps_trans; eauto].
  intros more t M L. rewrite <- app_assoc in L.
  destruct (A (b ++ more) t) as (t1 & L1 & R1); [apply no_semi_app; auto | exact L|].
  destruct (B _ _ M L1) as (t2 & L2 & R2). exists t2. split; [exact L2 | eapply reach_trans; eauto].
Qed.

Lemma proc_then_ns : forall a b xs s xs1 s1 xs2 s2,
  proc a xs s xs1 s1 -> proc_ns b xs1 s1 xs2 s2 -> proc_ns (a ++ b) xs s xs2 s2.
Proof.
  intros a b xs s xs1 s1 xs2 s2 [A KA] [B KB]. split; [|eapply keeps_trans; eauto].
  intros more t M L. rewrite <- app_assoc in L.
  destruct (A _ _ L) as (t1 & L1 & R1).
  destruct (B _ _ M L1) as (t2 & L2 & R2). exists t2. split; [exact L2 | eapply reach_trans; eauto].
Qed.

(** single tokens *)
Lemma proc_sym : forall k mk xs s xs' s',
  (forall ks t, layout (k :: ks) t -> exists off, lex t [] 0 = Ok (mk off) /\ layout ks (skipn off t)) ->
  (forall off, act (mk off) xs s 0 = AGo xs' s' 0 off) -> proc [k] xs s xs' s'.
Proof.
  intros k mk xs s xs' s' LY A. split; [|eapply act_keeps; apply (A 0)].
  intros more t L. cbn [app] in L. destruct (LY _ _ L) as (off & X & L').
  exists (skipn off t). split; [exact L' | eapply reach_step; eauto].
Qed.

Lemma proc_word : forall w xs s xs' s',
  (forall off brk, act (TWord w off brk) xs s 0 = AGo xs' s' 0 off) -> proc [KW w] xs s xs' s'.
Proof.
  intros w xs s xs' s' A. split; [|eapply act_keeps; apply (A 0 None)].
  intros more t L. cbn [app] in L. destruct (lay_word _ _ _ L) as (off & brk & X & L' & _).
  exists (skipn off t). split; [exact L' | eapply reach_step; eauto].
Qed.

Lemma proc_word_ns : forall w xs s xs' s',
  (forall off brk, brk <> Some ";"%char -> act (TWord w off brk) xs s 0 = AGo xs' s' 0 off) ->
  proc_ns [KW w] xs s xs' s'.
Proof.
  intros w xs s xs' s' A. split; [|eapply act_keeps; apply (A 0 None); discriminate].
  intros more t M L. cbn [app] in L. destruct (lay_word _ _ _ L) as (off & brk & X & L' & N).
  exists (skipn off t). split; [exact L' | eapply reach_step; eauto].
Qed.

Lemma proc_simple : forall w xs s xs1 s1 xs' s',
  (forall off, act (TWord w off (Some ";"%char)) xs s 0 = AGo xs1 s1 0 off) ->
  (forall off, act (TSemi off) xs1 s1 0 = AGo xs' s' 0 off) -> proc [KSimple w] xs s xs' s'.
Proof.
  intros w xs s xs1 s1 xs' s' A B.
  split; [|eapply keeps_trans; [eapply act_keeps; apply (A 0) | eapply act_keeps; apply (B 0)]].
  intros more t L. cbn [app] in L. destruct (lay_simple _ _ _ L) as (off & X1 & X2 & L').
  exists (skipn 1 (skipn off t)). split; [exact L'|].
  eapply reach_trans; [eapply reach_step; [exact X1 | apply A]|eapply reach_step; [exact X2 | apply B]].
Qed.

Lemma ok_some : forall A E (r : res A E) a, ok r = Some a -> r = Ok a.
Proof. intros A E [x|x|] a H; cbn [ok] in H; congruence. Qed.

Lemma obind_some : forall A B (o : option A) (f : A -> option B) b,
  obind o f = Some b -> exists a, o = Some a /\ f a = Some b.
Proof. intros A B [a|] f b H; [eauto | discriminate]. Qed.

Ltac ob H x :=
  let E := fresh "E" in
  apply obind_some in H as (x & E & H); try apply ok_some in E.

(** ** Fields *)

Lemma keep_enum_ft : forall s w s', set_field_type s w = Ok s' ->
  c_enum s' = c_enum s /\ exists f, c_field s' = Some f.
Proof.
  intros s w s'. unfold set_field_type. destruct (c_struct s); [|discriminate].
  destruct (c_field s) as [f|]; intros [= <-]; (split; [reflexivity | eexists; reflexivity]).
Qed.

Lemma ftype_word : forall w s s' xs, c_enum s = None ->
  ((xs = after_open \/ xs = after_semi) /\ get_entity w = None) \/ xs = [XFieldType] ->
  set_field_type s w = Ok s' -> proc [KW w] xs s after_type s'.
Proof.
  intros w s s' xs E X H. apply proc_word. intros off brk.
  destruct X as [[[-> | ->] K] | ->]; cbn [act]; try rewrite K; cbn [andb].
  1,2: change (is_in _ XStructName) with false; change (is_in _ XEnumName) with false;
    change (is_in _ XGroupName) with false; change (is_in _ XFieldName) with false;
    change (is_in _ XFieldType) with true; cbn [enum_opened]; unfold enum_opened; rewrite E, H; reflexivity.
  change (is_in _ XGroupDef) with false; change (is_in _ XStructDef) with false; change (is_in _ XEnumDef) with false.
  cbn [orb]. rewrite andb_false_r.
  change (is_in _ XStructName) with false; change (is_in _ XEnumName) with false;
    change (is_in _ XGroupName) with false; change (is_in _ XFieldName) with false;
    change (is_in _ XFieldType) with true. unfold enum_opened. rewrite E, H. reflexivity.
Qed.

Lemma dot_proc : forall s, field_opened s = true \/ enum_opened s = true ->
  proc [KDot] after_type s [XFieldType] s.
Proof.
  intros s H. apply (proc_sym KDot TDot); [exact lay_dot|]. intro off. cbn [act].
  change (is_in after_type XPathSpliter) with true. cbv iota.
  destruct H as [-> | ->]; cbn [negb andb]; rewrite ?andb_false_r; reflexivity.
Qed.

Lemma ftype_proc : forall p w s s' xs, c_enum s = None ->
  ((xs = after_open \/ xs = after_semi) /\ get_entity w = None) \/ xs = [XFieldType] ->
  elab_ftype s (w :: p) = Some s' ->
  proc (path_toks (w :: p)) xs s after_type s' /\ c_enum s' = None.
Proof.
  induction p as [|w' p IH]; intros w s s' xs E X H.
  - cbn [elab_ftype] in H. ob H s1. injection H as <-. cbn [path_toks].
    split; [eapply ftype_word; eauto|]. destruct (keep_enum_ft _ _ _ E0) as [K _]. congruence.
  - change (elab_ftype s (w :: w' :: p)) with
      (obind (ok (set_field_type s w)) (fun s => elab_ftype s (w' :: p))) in H. ob H s1.
    destruct (keep_enum_ft _ _ _ E0) as [K [f F]].
    destruct (IH w' s1 s' [XFieldType]) as [P K']; auto; [congruence|].
    split; [|exact K'].
    change (path_toks (w :: w' :: p)) with (KW w :: KDot :: path_toks (w' :: p)).
    eapply proc_cons; [eapply ftype_word; eauto|].
    eapply proc_cons; [|exact P]. apply dot_proc. left. unfold field_opened. rewrite F. reflexivity.
Qed.

Lemma rep_proc : forall (rep : bool) s s', (if rep then ok (set_repeated s) else Some s) = Some s' ->
  exists xs, proc (if rep then [KRep] else []) after_type s xs s' /\ (xs = after_type \/ xs = [XFieldName]).
Proof.
  intros [|] s s' H.
  - apply ok_some in H. exists [XFieldName]. split; [|auto].
    apply (proc_sym KRep TRep); [exact lay_rep|]. intro off. cbn [act].
    change (is_in after_type XRepeatedMark) with true. rewrite H. reflexivity.
  - injection H as <-. exists after_type. split; [apply proc_nil | auto].
Qed.

Lemma rep_enum : forall (rep : bool) s s', (if rep then ok (set_repeated s) else Some s) = Some s' ->
  enum_opened s' = enum_opened s.
Proof.
  intros [|] s s' H; [|injection H as <-; reflexivity]. apply ok_some in H. revert H.
  unfold set_repeated, enum_opened. destruct (c_enum s) as [e|] eqn:E.
  - destruct (e_cur e); intros [= <-]; reflexivity.
  - destruct (c_field s) eqn:F; intros [= <-]. cbn [set_c_field c_enum]. rewrite E. reflexivity.
Qed.

Lemma opened_none : forall s, enum_opened s = false <-> c_enum s = None.
Proof. intro s. unfold enum_opened. destruct (c_enum s); split; congruence. Qed.

Lemma fname_word : forall w s s' xs, enum_opened s = false -> xs = after_type \/ xs = [XFieldName] ->
  set_field_name s w = Ok s' -> proc [KW w] xs s [XSemicolon; XOptionalMark] s'.
Proof.
  intros w s s' xs E X H. apply proc_word. intros off brk. cbn [act].
  assert (D : is_in xs XGroupDef || is_in xs XStructDef || is_in xs XEnumDef = false)
    by (destruct X as [-> | ->]; reflexivity).
  rewrite D, andb_false_r.
  destruct X as [-> | ->];
    (change (is_in _ XStructName) with false; change (is_in _ XEnumName) with false;
     change (is_in _ XGroupName) with false; change (is_in _ XFieldName) with true; rewrite E, H; reflexivity).
Qed.

Lemma keep_enum_fn : forall s w s', set_field_name s w = Ok s' -> c_enum s' = c_enum s.
Proof.
  intros s w s'. unfold set_field_name. destruct (c_struct s); [|discriminate].
  destruct (c_field s); [|discriminate]. cbv zeta. unfold bind.
  destruct (accept_ftype _ _ _); intros H; try discriminate. injection H as <-. reflexivity.
Qed.

Lemma keep_enum_opt : forall s s', set_optional s = Ok s' -> c_enum s' = c_enum s.
Proof.
  intros s s'. unfold set_optional. destruct (c_field s); [|discriminate]. intros [= <-]. reflexivity.
Qed.

Lemma keep_enum_cf : forall s s', close_field s = Ok s' -> c_enum s' = c_enum s.
Proof.
  intros s s'. unfold close_field. destruct (c_struct s); [|discriminate].
  destruct (c_field s); [|discriminate]. destruct (existsb _ _); [discriminate|].
  intros [= <-]. reflexivity.
Qed.

Lemma opt_proc : forall (o : bool) s s', (if o then ok (set_optional s) else Some s) = Some s' ->
  c_enum s' = c_enum s /\
  exists xs, proc (if o then [KOpt] else []) [XSemicolon; XOptionalMark] s xs s' /\ is_in xs XSemicolon = true.
Proof.
  intros [|] s s' H.
  - apply ok_some in H. split; [apply keep_enum_opt; exact H|]. exists [XSemicolon]. split; [|reflexivity].
    apply (proc_sym KOpt TOpt); [exact lay_opt|]. intro off. cbn [act].
    change (is_in [XSemicolon; XOptionalMark] XOptionalMark) with true. rewrite H. reflexivity.
  - injection H as <-. split; [reflexivity|]. exists [XSemicolon; XOptionalMark]. split; [apply proc_nil | reflexivity].
Qed.

Lemma field_proc : forall f s s' xs, c_enum s = None -> path_ok_syn (fd_path f) ->
  xs = after_open \/ xs = after_semi -> elab_field s f = Some s' ->
  proc (field_toks f) xs s after_semi s' /\ c_enum s' = None.
Proof.
  intros [p rep n o] s s' xs E P X H. unfold elab_field, field_toks in *. cbn [fd_path fd_rep fd_name fd_opt] in *.
  destruct p as [|w p]; [destruct P|]. cbn [path_ok_syn] in P.
  ob H s1. ob H s2. ob H s3. ob H s4. apply ok_some in H.
  destruct (ftype_proc p w s s1 xs E) as [P1 N1]; auto.
  destruct (rep_proc _ _ _ E1) as (xs2 & P2 & X2).
  assert (N2 : c_enum s2 = None). { apply opened_none. rewrite (rep_enum _ _ _ E1). apply opened_none. exact N1. }
  assert (N3 : c_enum s3 = None) by (rewrite (keep_enum_fn _ _ _ E2); exact N2).
  destruct (opt_proc _ _ _ E3) as (N4 & xs4 & P4 & X4).
  split.
  - eapply proc_app; [exact P1|]. eapply proc_app; [exact P2|].
    eapply proc_app; [eapply fname_word; eauto; apply opened_none; exact N2|].
    eapply proc_app; [exact P4|].
    apply (proc_sym KSemi TSemi); [exact lay_semi|]. intro off. cbn [act]. rewrite X4.
    assert (enum_opened s4 = false) as -> by (apply opened_none; congruence). rewrite H. reflexivity.
  - rewrite (keep_enum_cf _ _ H). congruence.
Qed.

Lemma fields_proc : forall fs s s' xs, c_enum s = None ->
  Forall (fun f => path_ok_syn (fd_path f)) fs ->
  xs = after_open \/ xs = after_semi -> elab_list elab_field s fs = Some s' ->
  c_enum s' = None /\ exists xs', proc (flat_map field_toks fs) xs s xs' s' /\ (xs' = after_open \/ xs' = after_semi).
Proof.
  induction fs as [|f fs IH]; intros s s' xs E P X H.
  - injection H as <-. split; [exact E|]. exists xs. split; [apply proc_nil | exact X].
  - change (elab_list elab_field s (f :: fs)) with (obind (elab_field s f) (fun s => elab_list elab_field s fs)) in H.
    apply obind_some in H as (s1 & H1 & H). inversion P; subst.
    destruct (field_proc f s s1 xs E) as [P1 N1]; auto.
    destruct (IH s1 s' after_semi) as (N2 & xs' & P2 & X2); auto.
    split; [exact N2|]. exists xs'. split; [|exact X2]. cbn [flat_map]. eapply proc_app; eauto.
Qed.

(** ** Enum items *)

Lemma itype_word : forall w s s' xs, enum_opened s = true ->
  ((xs = after_open \/ xs = after_semi) /\ get_entity w = None) \/ xs = [XFieldType] ->
  set_enum_type s w = Ok s' -> proc_ns [KW w] xs s after_type s'.
Proof.
  intros w s s' xs E X H. apply proc_word_ns. intros off brk N.
  assert (B : (match brk with
         | Some c => if Ascii.eqb c ";" then go [XSemicolon] 0 off (set_simple s w)
                     else go after_type 0 off (set_enum_type s w)
         | None => go after_type 0 off (set_enum_type s w)
         end) = AGo after_type s' 0 off).
  { rewrite H. destruct brk as [c|]; [|reflexivity]. destruct (Ascii.eqb_spec c ";"); [congruence | reflexivity]. }
  cbn [act].
  destruct X as [[[-> | ->] K] | ->]; try rewrite K; cbn [andb].
  1,2: change (is_in _ XStructName) with false; change (is_in _ XEnumName) with false;
    change (is_in _ XGroupName) with false; change (is_in _ XFieldName) with false;
    change (is_in _ XFieldType) with true; rewrite E; exact B.
  change (is_in _ XGroupDef) with false; change (is_in _ XStructDef) with false; change (is_in _ XEnumDef) with false.
  cbn [orb]. rewrite andb_false_r.
  change (is_in _ XStructName) with false; change (is_in _ XEnumName) with false;
    change (is_in _ XGroupName) with false; change (is_in _ XFieldName) with false;
    change (is_in _ XFieldType) with true. rewrite E. exact B.
Qed.

Lemma keep_open_it : forall s w s', set_enum_type s w = Ok s' -> enum_opened s' = true.
Proof.
  intros s w s'. unfold set_enum_type. destruct (c_enum s); [|discriminate]. cbv zeta.
  intros [= <-]. reflexivity.
Qed.

Lemma itype_proc : forall p w s s' xs, enum_opened s = true ->
  ((xs = after_open \/ xs = after_semi) /\ get_entity w = None) \/ xs = [XFieldType] ->
  elab_itype s (w :: p) = Some s' ->
  proc_ns (path_toks (w :: p)) xs s after_type s' /\ enum_opened s' = true.
Proof.
  induction p as [|w' p IH]; intros w s s' xs E X H.
  - cbn [elab_itype] in H. ob H s1. injection H as <-. cbn [path_toks].
    split; [eapply itype_word; eauto | eapply keep_open_it; eauto].
  - change (elab_itype s (w :: w' :: p)) with
      (obind (ok (set_enum_type s w)) (fun s => elab_itype s (w' :: p))) in H. ob H s1.
    pose proof (keep_open_it _ _ _ E0) as K.
    destruct (IH w' s1 s' [XFieldType]) as [P K']; auto.
    split; [|exact K'].
    change (path_toks (w :: w' :: p)) with ([KW w] ++ ([KDot] ++ path_toks (w' :: p))).
    eapply proc_ns_ns_app; [intros ks; discriminate | discriminate | eapply itype_word; eauto|].
    eapply proc_then_ns; [apply dot_proc; right; exact K | exact P].
Qed.

Lemma iname_word : forall w s s' xs, enum_opened s = true -> xs = after_type \/ xs = [XFieldName] ->
  set_enum_name s w = Ok s' -> proc [KW w] xs s [XSemicolon] s'.
Proof.
  intros w s s' xs E X H. apply proc_word. intros off brk. cbn [act].
  assert (D : is_in xs XGroupDef || is_in xs XStructDef || is_in xs XEnumDef = false)
    by (destruct X as [-> | ->]; reflexivity).
  rewrite D, andb_false_r.
  destruct X as [-> | ->];
    (change (is_in _ XStructName) with false; change (is_in _ XEnumName) with false;
     change (is_in _ XGroupName) with false; change (is_in _ XFieldName) with true; rewrite E, H; reflexivity).
Qed.

Lemma keep_open_in : forall s w s', set_enum_name s w = Ok s' -> enum_opened s' = true.
Proof.
  intros s w s'. unfold set_enum_name. destruct (c_enum s) as [e|]; [|discriminate].
  destruct (e_cur e); [|discriminate]. unfold bind. destruct (accept_itype _ _ _); intros H; try discriminate.
  injection H as <-. reflexivity.
Qed.

Lemma keep_open_simple : forall s w s', set_simple s w = Ok s' -> enum_opened s' = true.
Proof.
  intros s w s'. unfold set_simple. destruct (c_enum s) as [e|]; [|discriminate].
  destruct (e_cur e); [discriminate|]. cbv zeta. intros [= <-]. reflexivity.
Qed.

Lemma semi_enum : forall s, enum_opened s = true -> proc [KSemi] [XSemicolon] s after_semi s.
Proof.
  intros s E. apply (proc_sym KSemi TSemi); [exact lay_semi|]. intro off. cbn [act].
  change (is_in [XSemicolon] XSemicolon) with true. rewrite E. reflexivity.
Qed.

Lemma item_proc : forall i s s' xs, enum_opened s = true -> item_syn i ->
  xs = after_open \/ xs = after_semi -> elab_item s i = Some s' ->
  proc (item_toks i) xs s after_semi s' /\ enum_opened s' = true.
Proof.
  intros [n | p rep n] s s' xs E P X H; cbn [elab_item item_toks item_syn] in *.
  - apply ok_some in H. pose proof (keep_open_simple _ _ _ H) as K. split; [|exact K].
    apply proc_simple with (xs1 := [XSemicolon]) (s1 := s'); intro off.
    + cbn [act]. rewrite P. cbn [andb].
      destruct X as [-> | ->];
        (change (is_in _ XStructName) with false; change (is_in _ XEnumName) with false;
         change (is_in _ XGroupName) with false; change (is_in _ XFieldName) with false;
         change (is_in _ XFieldType) with true; rewrite E; cbn [Ascii.eqb Bool.eqb]; rewrite H; reflexivity).
    + cbn [act]. change (is_in [XSemicolon] XSemicolon) with true. rewrite K. reflexivity.
  - destruct p as [|w p]; [destruct P|]. cbn [path_ok_syn] in P.
    ob H s1. ob H s2. apply ok_some in H.
    destruct (itype_proc p w s s1 xs E) as [P1 N1]; auto.
    destruct (rep_proc _ _ _ E1) as (xs2 & P2 & X2).
    assert (N2 : enum_opened s2 = true) by (rewrite (rep_enum _ _ _ E1); exact N1).
    pose proof (keep_open_in _ _ _ H) as N3. split; [|exact N3].
    eapply proc_ns_app; [| |exact P1|].
    + destruct rep; intros ks; discriminate.
    + destruct rep; discriminate.
    + eapply proc_app; [exact P2|]. eapply proc_cons; [eapply iname_word; eauto | apply semi_enum; exact N3].
Qed.

Lemma items_proc : forall fs s s' xs, enum_opened s = true -> Forall item_syn fs ->
  xs = after_open \/ xs = after_semi -> elab_list elab_item s fs = Some s' ->
  enum_opened s' = true /\ exists xs', proc (flat_map item_toks fs) xs s xs' s' /\ (xs' = after_open \/ xs' = after_semi).
Proof.
  induction fs as [|f fs IH]; intros s s' xs E P X H.
  - injection H as <-. split; [exact E|]. exists xs. split; [apply proc_nil | exact X].
  - change (elab_list elab_item s (f :: fs)) with (obind (elab_item s f) (fun s => elab_list elab_item s fs)) in H.
    apply obind_some in H as (s1 & H1 & H). inversion P; subst.
    destruct (item_proc f s s1 xs E) as [P1 N1]; auto.
    destruct (IH s1 s' after_semi) as (N2 & xs' & P2 & X2); auto.
    split; [exact N2|]. exists xs'. split; [|exact X2]. cbn [flat_map]. eapply proc_app; eauto.
Qed.

(** ** Declarations *)

Definition defs (xs : list expect) : Prop := xs = at_start \/ xs = after_open \/ xs = after_close.

Lemma kw_proc : forall w k xs s xs', defs xs ->
  (w, k, xs') = (txt "struct", EStruct, [XStructName]) \/ (w, k, xs') = (txt "enum", EEnum, [XEnumName]) \/
  (w, k, xs') = (txt "group", EGroup, [XGroupName]) -> proc [KW w] xs s xs' s.
Proof.
  intros w k xs s xs' D K. apply proc_word. intros off brk.
  destruct K as [K | [K | K]]; injection K as -> -> ->; destruct D as [-> | [-> | ->]]; reflexivity.
Qed.

Lemma name_proc : forall w s s' xs r,
  (xs = [XStructName] /\ r = open_struct s w) \/ (xs = [XEnumName] /\ r = open_enum s w) \/
  (xs = [XGroupName] /\ r = open_group s w) -> r = Ok s' -> proc [KW w] xs s [XOpen] s'.
Proof.
  intros w s s' xs r K H. apply proc_word. intros off brk. cbn [act].
  destruct K as [[-> ->] | [[-> ->] | [-> ->]]];
    (change (is_in _ XGroupDef) with false; change (is_in _ XStructDef) with false; change (is_in _ XEnumDef) with false;
     cbn [orb]; rewrite andb_false_r).
  - change (is_in _ XStructName) with true. rewrite H. reflexivity.
  - change (is_in _ XStructName) with false. change (is_in _ XEnumName) with true. rewrite H. reflexivity.
  - change (is_in _ XStructName) with false. change (is_in _ XEnumName) with false.
    change (is_in _ XGroupName) with true. rewrite H. reflexivity.
Qed.

Lemma open_proc : forall s, open s = Ok s -> proc [KOpen] [XOpen] s after_open s.
Proof.
  intros s H. apply (proc_sym KOpen TOpen); [exact lay_open|]. intro off. cbn [act].
  change (is_in [XOpen] XOpen) with true. rewrite H. reflexivity.
Qed.

Lemma close_proc : forall s s' xs, is_in xs XClose = true -> close s = Ok s' -> proc [KClose] xs s after_close s'.
Proof.
  intros s s' xs X H. apply (proc_sym KClose TClose); [exact lay_close|]. intro off. cbn [act].
  rewrite X, H. reflexivity.
Qed.

Lemma open_struct_opened : forall s n s', open_struct s n = Ok s' -> c_enum s' = None /\ open s' = Ok s'.
Proof.
  intros s n s'. unfold open_struct. destruct (c_struct s); [discriminate|]. destruct (c_enum s) eqn:E; [discriminate|].
  cbv zeta. unfold bind. destruct (path_by_parent _ _); intros H; try discriminate. injection H as <-.
  unfold bind_struct_id, open. cbn [c_group set_seq].
  destruct (c_group s) eqn:G; cbn [c_enum set_c_struct set_c_group set_seq c_struct c_group];
    rewrite ?G; split; auto.
Qed.

Lemma open_enum_opened : forall s n s', open_enum s n = Ok s' -> enum_opened s' = true /\ open s' = Ok s'.
Proof.
  intros s n s'. unfold open_enum. destruct (c_struct s) eqn:E'; [discriminate|]. destruct (c_enum s) eqn:E; [discriminate|].
  cbv zeta. unfold bind. destruct (path_by_parent _ _); intros H; try discriminate. injection H as <-.
  unfold bind_enum_id, open, enum_opened. cbn [c_group set_seq].
  destruct (c_group s) eqn:G; cbn [c_enum set_c_enum set_c_group set_seq c_struct c_group];
    rewrite ?G, ?E'; split; auto.
Qed.

Lemma open_group_opened : forall s n s', open_group s n = Ok s' -> open s' = Ok s'.
Proof.
  intros s n s'. unfold open_group. destruct (c_struct s) eqn:E'; [discriminate|]. destruct (c_enum s) eqn:E; [discriminate|].
  cbv zeta. intros [= <-]. unfold open. cbn [c_group set_path set_c_group]. reflexivity.
Qed.

Lemma decl_proc : forall d s s' xs, decl_syn d -> defs xs -> elab s d = Some s' ->
  proc (decl_toks d) xs s after_close s'.
Proof.
  induction d as [n fs | n fs | n ds IH] using decl_ind'; intros s s' xs P X H.
  - cbn [elab decl_toks decl_syn] in *. ob H s1. apply obind_some in H as (s2 & E1 & H). apply ok_some in H.
    destruct (open_struct_opened _ _ _ E) as [N O].
    destruct (fields_proc fs s1 s2 after_open N P (or_introl eq_refl) E1) as (N2 & xs2 & P2 & X2).
    eapply proc_cons; [eapply (kw_proc _ EStruct); eauto|].
    eapply proc_cons; [eapply name_proc; [left; split; reflexivity | exact E]|].
    eapply proc_cons; [apply open_proc; exact O|].
    eapply proc_app; [exact P2|]. eapply close_proc; [|exact H]. destruct X2 as [-> | ->]; reflexivity.
  - cbn [elab decl_toks decl_syn] in *. ob H s1. apply obind_some in H as (s2 & E1 & H). apply ok_some in H.
    destruct (open_enum_opened _ _ _ E) as [N O].
    destruct (items_proc fs s1 s2 after_open N P (or_introl eq_refl) E1) as (N2 & xs2 & P2 & X2).
    eapply proc_cons; [eapply (kw_proc _ EEnum); eauto|].
    eapply proc_cons; [eapply name_proc; [right; left; split; reflexivity | exact E]|].
    eapply proc_cons; [apply open_proc; exact O|].
    eapply proc_app; [exact P2|]. eapply close_proc; [|exact H]. destruct X2 as [-> | ->]; reflexivity.
  - rewrite elab_group in H. rewrite decl_toks_group. ob H s1. apply obind_some in H as (s2 & E1 & H). apply ok_some in H.
    pose proof (open_group_opened _ _ _ E) as O.
    assert (Q : forall s1 s2 xs, xs = after_open \/ xs = after_close -> elab_decls s1 ds = Some s2 ->
              exists xs', proc (decls_toks ds) xs s1 xs' s2 /\ (xs' = after_open \/ xs' = after_close)).
    { clear - IH P. induction ds as [|d ds IHd]; intros s1 s2 xs X E.
      - injection E as <-. exists xs. split; [apply proc_nil | exact X].
      - change (elab_decls s1 (d :: ds)) with (obind (elab s1 d) (fun s => elab_decls s ds)) in E.
        apply obind_some in E as (s3 & E3 & E). inversion IH; subst. destruct P as [P1 P2].
        destruct (IHd H2 P2 s3 s2 after_close) as (xs' & P' & X'); [auto | exact E|].
        exists xs'. split; [|exact X']. cbn [decls_toks flat_map].
        eapply proc_app; [apply (H1 _ _ _ P1 (or_intror X) E3) | exact P']. }
    destruct (Q s1 s2 after_open (or_introl eq_refl) E1) as (xs2 & P2 & X2).
    eapply proc_cons; [eapply (kw_proc _ EGroup); eauto|].
    eapply proc_cons; [eapply name_proc; [right; right; split; reflexivity | exact E]|].
    eapply proc_cons; [apply open_proc; exact O|].
    eapply proc_app; [exact P2|]. eapply close_proc; [|exact H]. destruct X2 as [-> | ->]; reflexivity.
Qed.

Lemma lex_all_blank : forall t, blank t -> lex t [] 0 = Ok TEnd.
Proof. intros t B. rewrite <- (app_nil_r t), lex_blank by exact B. reflexivity. Qed.

Theorem parse_elab : forall ds t s, Forall decl_syn ds -> layout (decls_toks ds) t ->
  elab_decls store_new ds = Some s -> parse t = PAccepted s.
Proof.
  intros ds t s P L H.
  assert (Q : forall ds s1 s2 xs, Forall decl_syn ds -> defs xs -> elab_decls s1 ds = Some s2 ->
              exists xs', proc (decls_toks ds) xs s1 xs' s2).
  { clear. induction ds as [|d ds IH]; intros s1 s2 xs P X E.
    - injection E as <-. exists xs. apply proc_nil.
    - change (elab_decls s1 (d :: ds)) with (obind (elab s1 d) (fun s => elab_decls s ds)) in E.
      apply obind_some in E as (s3 & E3 & E). inversion P; subst.
      destruct (IH s3 s2 after_close) as (xs' & P'); [auto | right; right; reflexivity | exact E|].
      exists xs'. cbn [decls_toks flat_map]. eapply proc_app; [eapply decl_proc; eauto | exact P']. }
  destruct (Q ds store_new s at_start P (or_introl eq_refl) H) as (xs' & PR & _).
  specialize (PR [] t). rewrite app_nil_r in PR. destruct (PR L) as (t' & L' & (k & R)).
  inversion L'; subst.
  assert (A : run (k + 1) t at_start store_new 0 = PAccepted s).
  { rewrite R. cbn [run]. rewrite lex_all_blank by assumption. reflexivity. }
  destruct inv_new as [I LK]. unfold parse.
  assert (N : run (fuel_for t) t at_start store_new 0 <> PRunning).
  { apply run_terminates; auto. unfold fuel_for. pose proof (rank_le at_start). lia. }
  rewrite <- (run_more_fuel _ _ _ _ _ (k + 1) N), Nat.add_comm.
  rewrite (run_more_fuel (k + 1)); rewrite A; [reflexivity | discriminate].
Qed.
