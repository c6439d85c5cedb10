(** The parser loop: invariant, termination, lockstep of a text and its
    continuations. *)
From Coq Require Import String Ascii NArith List Arith Lia Bool.
From Verif Require Import Bytes ProtoModel ProtoProofs ProtoInv.
Import ListNotations.
Close Scope string_scope.
Open Scope list_scope.
Open Scope nat_scope.

Definition step_ok (t : tok) (xs : list expect) (s : store) (errs : nat) (a : after) : Prop :=
  match a with
  | AGo xs' s' errs' off =>
    inv s' /\ link xs' s' /\ grows s s' /\ errs <= errs' /\ off = offset_of t /\ t <> TEnd
  | ABreak n => (t = TEnd /\ n = errs) \/ n = S errs
  | AHalt HFuel => False
  | AHalt HStop => True
  end.

Lemma mk_step : forall t xs s errs xs' s' off,
  inv s' -> link xs' s' -> grows s s' -> off = offset_of t -> t <> TEnd ->
  step_ok t xs s errs (AGo xs' s' errs off).
Proof. intros. split; [|split; [|split; [|split; [|split]]]]; auto. Qed.

Ltac shape L :=
  destruct L as [[SH L] | [[SH L] | [SH L]]];
  [destruct SH as [->|[->|[->|[->|[->|[->|[->| ->]]]]]]]
  |destruct SH as [->|[->| ->]]
  |destruct SH as [->| ->]].

Lemma set_field_type_inv : forall s w, inv s -> c_enum s = None ->
  (c_field s = None \/ exists x f, c_struct s = Some x /\ c_field s = Some f /\ s_id x < f_id f /\ f_ref f = None) ->
  match set_field_type s w with
  | Ok s' => inv s' /\ grows s s' /\ link after_type s'
  | Err HFuel => False
  | _ => True
  end.
Proof.
  intros s w I EE H. unfold set_field_type. destruct (c_struct s) as [x|] eqn:EX; [|exact Logic.I].
  destruct (c_field s) as [f|] eqn:EF.
  - destruct H as [H | (x' & f' & A & B & D & E)]; [discriminate|].
    injection A as <-. injection B as <-.
    destruct (inv_same_field s f (add_ftype f w) I EF eq_refl) as [I1 X1].
    split; [exact I1|]. split; [apply grows_same; auto|].
    right; left. split; [left; reflexivity|]. right.
    exists x, (add_ftype f w). cbn [set_c_field c_enum c_struct c_field]. auto.
  - cbv zeta. set (f' := add_ftype _ _).
    assert (LX : s_id x <= seq s).
    { apply (I_range _ I). rewrite cnt_eq, EX. cbn [olist map count_occ].
      destruct (Nat.eq_dec (s_id x) (s_id x)); lia. }
    assert (K : forall i, cnt (set_c_field s (Some f')) i = cnt s i + count_occ Nat.eq_dec [S (seq s)] i).
    { intro i. rewrite !cnt_eq. cbn [set_c_field structs enums groups c_struct c_group c_enum c_field].
      rewrite EF. unfold f'. cbn [olist map add_ftype f_id set_seq seq count_occ]. lia. }
    destruct (inv_set_field s (Some f') (S (seq s)) I) as [I1 X1]; [lia| | |].
    + intro i. rewrite K. cbn [count_occ]. destruct (Nat.eq_dec (S (seq s)) i) as [<-|].
      * rewrite cnt_fresh; auto.
      * pose proof (I_cnt _ I i). lia.
    + intros i Hi. rewrite K in Hi. cbn [count_occ] in Hi. destruct (Nat.eq_dec (S (seq s)) i); [lia|].
      assert (0 < cnt s i) by lia. apply (I_range _ I) in H0. lia.
    + split; [exact I1|]. split.
      * apply grows_same; auto. cbn [set_c_field set_seq seq]. lia.
      * right; left. split; [left; reflexivity|]. right.
        exists x, f'. cbn [set_c_field set_seq c_enum c_struct c_field].
        split; [exact EE|]. split; [exact EX|]. split; [reflexivity|].
        split; [|reflexivity]. unfold f'. cbn [add_ftype f_id set_seq seq]. lia.
Qed.

Lemma set_enum_type_inv : forall s e w, inv s -> c_enum s = Some e -> c_field s = None ->
  (forall i, e_cur e = Some i -> i_types i = None /\ i_ref i = None) ->
  match set_enum_type s w with
  | Ok s' => inv s' /\ grows s s' /\ link after_type s'
  | Err HFuel => False
  | _ => True
  end.
Proof.
  intros s e w I EE EF H. unfold set_enum_type. rewrite EE. cbv zeta.
  set (cur := match e_cur e with Some i => i | None => _ end).
  assert (HC : i_types cur = None /\ i_ref cur = None).
  { unfold cur. destruct (e_cur e); [apply H; reflexivity | split; reflexivity]. }
  set (e' := mkEnum _ _ _ _ _ _).
  destruct (inv_set_enum s e e' I EE eq_refl eq_refl eq_refl) as [I1 X1].
  { pose proof (I_enums _ I) as G. unfold all_enums in G. rewrite EE in G.
    apply Forall_app in G as [_ G]. inversion G; subst. apply H2. }
  split; [exact I1|]. split; [apply grows_same; auto|].
  right; left. split; [left; reflexivity|]. left.
  exists e'. eexists. cbn [set_c_enum c_enum c_field].
  split; [reflexivity|]. split; [reflexivity|]. split; [exact EF|].
  cbn [i_types i_ref]. exact HC.
Qed.

Lemma items_of_cur : forall s e, inv s -> c_enum s = Some e -> Forall (good_item s e) (e_items e).
Proof.
  intros s e I EE. pose proof (I_enums _ I) as G. unfold all_enums in G. rewrite EE in G.
  apply Forall_app in G as [_ G]. inversion G; subst. apply H1.
Qed.

Lemma set_simple_inv : forall s e w, inv s -> c_enum s = Some e -> c_field s = None -> e_cur e = None ->
  match set_simple s w with
  | Ok s' => inv s' /\ grows s s' /\ link [XSemicolon] s'
  | Err HFuel => False
  | _ => True
  end.
Proof.
  intros s e w I EE EF EC. unfold set_simple. rewrite EE, EC. cbv zeta.
  set (e' := mkEnum _ _ _ _ _ _).
  destruct (inv_set_enum s e e' I EE eq_refl eq_refl eq_refl) as [I1 X1].
  { unfold e'. cbn [e_items]. apply Forall_snoc.
    - apply (items_of_cur _ _ I EE).
    - left. repeat split; reflexivity. }
  split; [exact I1|]. split; [apply grows_same; auto|].
  right; right. split; [left; reflexivity|]. left. exists e'. cbn [set_c_enum c_enum c_field]. auto.
Qed.

Lemma set_enum_name_inv : forall s e i w, inv s -> c_enum s = Some e -> c_field s = None ->
  e_cur e = Some i -> i_types i = None -> i_ref i = None ->
  match set_enum_name s w with
  | Ok s' => inv s' /\ grows s s' /\ link [XSemicolon] s'
  | Err HFuel => False
  | _ => True
  end.
Proof.
  intros s e i w I EE EF EC T1 T2. unfold set_enum_name. rewrite EE, EC.
  pose proof (accept_itype_ok s (group_id s) i T2 T1) as A.
  destruct (accept_itype s (group_id s) i) as [i1|h|]; cbn [bind]; [|destruct h; auto|auto].
  destruct A as (A1 & A2 & A3 & A4). cbv zeta.
  destruct (I_open_e _ I _ EE) as (B1 & B2 & B3).
  set (i2 := mkItem _ _ _ _ _ _). set (e' := mkEnum _ _ _ _ _ _).
  destruct (inv_set_enum s e e' I EE eq_refl eq_refl eq_refl) as [I1 X1].
  { unfold e'. cbn [e_items]. apply Forall_snoc.
    - apply (items_of_cur _ _ I EE).
    - right. unfold i2. cbn [i_tpath i_types i_ref e_parent e_id]. rewrite B2. split; [exact A3|].
      intros id Hid. destruct (A4 id Hid) as [Q1 Q2]. split; [apply B3; exact Q1 | exact Q2]. }
  split; [exact I1|]. split; [apply grows_same; auto|].
  right; right. split; [left; reflexivity|]. left. exists e'. cbn [set_c_enum c_enum c_field]. auto.
Qed.

Lemma set_field_name_inv : forall s x f w, inv s -> c_enum s = None -> c_struct s = Some x ->
  c_field s = Some f -> s_id x < f_id f -> f_ref f = None ->
  match set_field_name s w with
  | Ok s' => inv s' /\ grows s s' /\ link [XSemicolon; XOptionalMark] s'
  | Err HFuel => False
  | _ => True
  end.
Proof.
  intros s x f w I EE EX EF L R. unfold set_field_name. rewrite EX, EF. cbv zeta.
  set (f1 := mkField _ _ _ _ _ _ _ _ _).
  pose proof (accept_ftype_ok s (group_id s) f1 R) as A.
  destruct (accept_ftype s (group_id s) f1) as [f2|h|]; cbn [bind]; [|destruct h; auto|auto].
  destruct A as (A1 & A2 & A3 & A4 & A5 & A6 & A7).
  destruct (I_open_s _ I _ EX) as (B1 & B2 & B3).
  destruct (inv_same_field s f f2 I EF) as [I1 X1]; [rewrite A1; reflexivity|].
  split; [exact I1|]. split; [apply grows_same; auto|].
  right; right. split; [right; reflexivity|]. right. exists x, f2.
  cbn [set_c_field c_enum c_struct c_field].
  split; [exact EE|]. split; [exact EX|]. split; [reflexivity|].
  split; [rewrite A1; exact L|]. split.
  - rewrite B2. eapply resolved_ext; eauto.
  - intros id Hid. destruct (A7 id Hid) as [Q1 Q2]. split; [apply B3; exact Q1 | exact Q2].
Qed.

Lemma set_repeated_inv : forall s xs, inv s -> typing xs -> link xs s ->
  match set_repeated s with
  | Ok s' => inv s' /\ grows s s' /\ link [XFieldName] s'
  | Err HFuel => False
  | _ => True
  end.
Proof.
  intros s xs I TY L.
  destruct L as [[SH _] | [[SH L] | [SH _]]].
  { destruct TY as [->|[->| ->]], SH as [H|[H|[H|[H|[H|[H|[H|H]]]]]]]; discriminate H. }
  2:{ destruct TY as [->|[->| ->]], SH as [H|H]; discriminate H. }
  unfold set_repeated. destruct L as [(e & i & E1 & E2 & E3 & E4 & E5) | (x & f & E1 & E2 & E3 & E4 & E5)].
  - rewrite E1, E2. cbv zeta. set (e' := mkEnum _ _ _ _ _ _).
    destruct (inv_set_enum s e e' I E1 eq_refl eq_refl eq_refl) as [I1 X1].
    { apply (items_of_cur _ _ I E1). }
    split; [exact I1|]. split; [apply grows_same; auto|].
    right; left. split; [right; right; reflexivity|]. left. exists e'. eexists.
    cbn [set_c_enum c_enum c_field]. split; [reflexivity|]. split; [reflexivity|].
    split; [exact E3|]. cbn [i_types i_ref]. auto.
  - rewrite E1, E3. set (f' := mkField _ _ _ _ _ _ _ _ _).
    destruct (inv_same_field s f f' I E3 eq_refl) as [I1 X1].
    split; [exact I1|]. split; [apply grows_same; auto|].
    right; left. split; [right; right; reflexivity|]. right. exists x, f'.
    cbn [set_c_field c_enum c_struct c_field]. auto.
Qed.

Lemma set_optional_inv : forall s, inv s -> link [XSemicolon; XOptionalMark] s ->
  match set_optional s with
  | Ok s' => inv s' /\ grows s s' /\ link [XSemicolon] s'
  | Err HFuel => False
  | _ => True
  end.
Proof.
  intros s I L.
  destruct L as [[SH _] | [[SH _] | [SH L]]].
  { destruct SH as [H|[H|[H|[H|[H|[H|[H|H]]]]]]]; discriminate H. }
  { destruct SH as [H|[H|H]]; discriminate H. }
  unfold set_optional. destruct L as [(e & E1 & E2 & E3) | (x & f & E1 & E2 & E3 & E4 & E5 & E6)].
  - rewrite E3. exact Logic.I.
  - rewrite E3. set (f' := mkField _ _ _ _ _ _ _ _ _).
    destruct (inv_same_field s f f' I E3 eq_refl) as [I1 X1].
    split; [exact I1|]. split; [apply grows_same; auto|].
    right; right. split; [left; reflexivity|]. right. exists x, f'.
    cbn [set_c_field c_enum c_struct c_field].
    split; [exact E1|]. split; [exact E2|]. split; [reflexivity|]. split; [exact E4|].
    split; [|exact E6]. cbn [f_tpath f_kind f_ref f']. eapply resolved_ext; eauto.
Qed.

Lemma link_idle : forall xs s, idle xs -> c_field s = None ->
  (forall e, c_enum s = Some e -> e_cur e = None) -> link xs s.
Proof. intros. left. auto. Qed.

Ltac in_shape := unfold idle, typing, accepting; auto 10.

Lemma act_ok : forall t xs s errs, inv s -> link xs s -> step_ok t xs s errs (act t xs s errs).
Proof.
  intros t xs s errs I L.
  destruct t as [w off brk|off|off|off|off|off|off|]; cbn [act]; [| | | | | | |left; auto].
  - (* word *)
    destruct (match get_entity w with Some _ => true | None => false end &&
              (is_in xs XGroupDef || is_in xs XStructDef || is_in xs XEnumDef)) eqn:K.
    { apply andb_true_iff in K as [K1 K2].
      assert (ID : idle xs).
      { destruct L as [[SH _] | [[SH _] | [SH _]]]; auto;
          [destruct SH as [->|[->| ->]] | destruct SH as [->| ->]]; discriminate K2. }
      destruct L as [(_ & L1 & L2) | [[SH _] | [SH _]]].
      2:{ destruct SH as [->|[->| ->]]; discriminate K2. }
      2:{ destruct SH as [->| ->]; discriminate K2. }
      destruct (get_entity w) as [[| |]|]; [| | |discriminate].
      - destruct (is_in xs XGroupDef); [|exact Logic.I].
        apply mk_step; [exact I | apply link_idle; auto; in_shape | apply grows_refl | reflexivity | discriminate].
      - destruct (is_in xs XStructDef); [|exact Logic.I].
        apply mk_step; [exact I | apply link_idle; auto; in_shape | apply grows_refl | reflexivity | discriminate].
      - destruct (is_in xs XEnumDef); [|exact Logic.I].
        apply mk_step; [exact I | apply link_idle; auto; in_shape | apply grows_refl | reflexivity | discriminate]. }
    clear K.
    assert (FT : forall xs, (typing xs \/ (idle xs /\ c_field s = None /\ (forall e, c_enum s = Some e -> e_cur e = None))) ->
       link xs s ->
       step_ok (TWord w off brk) xs s errs
         (if enum_opened s
          then match brk with
               | Some c => if Ascii.eqb c ";" then go [XSemicolon] errs off (set_simple s w)
                           else go after_type errs off (set_enum_type s w)
               | None => go after_type errs off (set_enum_type s w)
               end
          else go after_type errs off (set_field_type s w))).
    { intros ys Y LY. unfold enum_opened.
      assert (Q : (c_field s = None /\ (forall e, c_enum s = Some e -> forall i, e_cur e = Some i -> i_types i = None /\ i_ref i = None))
                  \/ (c_enum s = None /\ exists x f, c_struct s = Some x /\ c_field s = Some f /\ s_id x < f_id f /\ f_ref f = None)).
      { destruct Y as [Y | (Y1 & Y2 & Y3)].
        - destruct LY as [[SH _] | [[SH LY] | [SH _]]].
          { destruct Y as [->|[->| ->]], SH as [H|[H|[H|[H|[H|[H|[H|H]]]]]]]; discriminate H. }
          2:{ destruct Y as [->|[->| ->]], SH as [H|H]; discriminate H. }
          destruct LY as [(e & i & E1 & E2 & E3 & E4 & E5) | (x & f & E1 & E2 & E3 & E4 & E5)].
          + left. split; [exact E3|]. intros e' H i' H'. rewrite E1 in H. injection H as <-.
            rewrite E2 in H'. injection H' as <-. auto.
          + right. split; [exact E1|]. exists x, f. auto.
        - left. split; [exact Y2|]. intros e He i Hi. rewrite (Y3 e He) in Hi. discriminate. }
      destruct (c_enum s) as [e|] eqn:EE.
      - destruct Q as [(Q1 & Q2) | (Q1 & _)]; [|discriminate].
        assert (ST : step_ok (TWord w off brk) ys s errs (go after_type errs off (set_enum_type s w))).
        { pose proof (set_enum_type_inv s e w I EE Q1 (Q2 e eq_refl)) as A.
          destruct (set_enum_type s w) as [s'|h|]; cbn [go]; [|destruct h; auto|auto].
          destruct A as (A1 & A2 & A3). apply mk_step; auto; discriminate. }
        destruct brk as [c|]; [|exact ST]. destruct (Ascii.eqb c ";"); [|exact ST].
        destruct (e_cur e) as [i|] eqn:EC.
        + unfold set_simple. rewrite EE, EC. exact Logic.I.
        + pose proof (set_simple_inv s e w I EE Q1 EC) as A.
          destruct (set_simple s w) as [s'|h|]; cbn [go]; [|destruct h; auto|auto].
          destruct A as (A1 & A2 & A3). apply mk_step; auto; discriminate.
      - pose proof (set_field_type_inv s w I EE) as A.
        assert (B : c_field s = None \/ (exists x f, c_struct s = Some x /\ c_field s = Some f /\ s_id x < f_id f /\ f_ref f = None)).
        { destruct Q as [(Q1 & _) | (_ & Q)]; auto. }
        specialize (A B).
        destruct (set_field_type s w) as [s'|h|]; cbn [go]; [|destruct h; auto|auto].
        destruct A as (A1 & A2 & A3). apply mk_step; auto; discriminate. }
    assert (NM : typing xs -> link xs s ->
       step_ok (TWord w off brk) xs s errs
         (if enum_opened s then go [XSemicolon] errs off (set_enum_name s w)
          else go [XSemicolon; XOptionalMark] errs off (set_field_name s w))).
    { intros TY LY.
      destruct LY as [[SH _] | [[SH LY] | [SH _]]].
      { destruct TY as [->|[->| ->]], SH as [H|[H|[H|[H|[H|[H|[H|H]]]]]]]; discriminate H. }
      2:{ destruct TY as [->|[->| ->]], SH as [H|H]; discriminate H. }
      unfold enum_opened.
      destruct LY as [(e & i & E1 & E2 & E3 & E4 & E5) | (x & f & E1 & E2 & E3 & E4 & E5)]; rewrite E1.
      - pose proof (set_enum_name_inv s e i w I E1 E3 E2 E4 E5) as A.
        destruct (set_enum_name s w) as [s'|h|]; cbn [go]; [|destruct h; auto|auto].
        destruct A as (A1 & A2 & A3). apply mk_step; auto; discriminate.
      - pose proof (set_field_name_inv s x f w I E1 E2 E3 E4 E5) as A.
        destruct (set_field_name s w) as [s'|h|]; cbn [go]; [|destruct h; auto|auto].
        destruct A as (A1 & A2 & A3). apply mk_step; auto; discriminate. }
    pose proof L as L0.
    shape L; cbn [is_in existsb expect_eqb orb at_start after_open after_close after_semi after_type];
      try (right; reflexivity);
      try (solve [apply FT; [right; destruct L; in_shape | exact L0]]);
      try (solve [apply FT; [left; in_shape | exact L0]]);
      try (solve [apply NM; [in_shape | exact L0]]).
    + pose proof (open_struct_inv s w I) as A.
      destruct (open_struct s w) as [s'|h|]; cbn [go]; [|destruct h; auto|auto].
      destruct A as (A1 & A2 & A3 & A4). apply mk_step; auto; try discriminate.
      apply link_idle; [in_shape | destruct L; congruence | congruence].
    + pose proof (open_enum_inv s w I) as A.
      destruct (open_enum s w) as [s'|h|]; cbn [go]; [|destruct h; auto|auto].
      destruct A as (A1 & A2 & A3 & A4). apply mk_step; auto; try discriminate.
      apply link_idle; [in_shape | destruct L; congruence | exact A4].
    + pose proof (open_group_inv s w I) as A.
      destruct (open_group s w) as [s'|h|]; cbn [go]; [|destruct h; auto|auto].
      destruct A as (A1 & A2 & A3 & A4). apply mk_step; auto; try discriminate.
      apply link_idle; [in_shape | destruct L; congruence | congruence].
  - (* { *)
    shape L; cbn [is_in existsb expect_eqb orb at_start after_open after_close after_semi after_type];
      try (right; reflexivity).
    assert (LK : link after_open s) by (destruct L as [L1 L2]; apply link_idle; [in_shape | exact L1 | exact L2]).
    unfold open. destruct (c_group s), (c_struct s), (c_enum s); cbn [go]; try exact Logic.I;
      (apply mk_step; [exact I | exact LK | apply grows_refl | reflexivity | discriminate]).
  - (* } *)
    assert (CL : c_field s = None -> (forall e, c_enum s = Some e -> e_cur e = None) -> forall ys,
                 step_ok (TClose off) ys s errs (go after_close errs off (close s))).
    { intros L1 L2 ys. pose proof (close_inv s I L1 L2) as A.
      destruct (close s) as [s'|h|]; cbn [go]; [|destruct h; auto|auto].
      destruct A as (A1 & A2 & A3 & A4 & A5). apply mk_step; auto; try discriminate.
      apply link_idle; [in_shape | exact A3 | congruence]. }
    shape L; cbn [is_in existsb expect_eqb orb at_start after_open after_close after_semi after_type];
      try (right; reflexivity); apply CL; apply L.
  - (* ; *)
    assert (CL : forall ys, accepting ys -> link ys s ->
                 step_ok (TSemi off) ys s errs
                   (go after_semi errs off (if enum_opened s then Ok s else close_field s))).
    { intros ys Y LY.
      destruct LY as [[SH _] | [[SH _] | [SH LY]]].
      { destruct Y as [->| ->], SH as [H|[H|[H|[H|[H|[H|[H|H]]]]]]]; discriminate H. }
      { destruct Y as [->| ->], SH as [H|[H|H]]; discriminate H. }
      unfold enum_opened.
      destruct LY as [(e & E1 & E2 & E3) | (x & f & E1 & E2 & E3 & E4 & E5 & E6)]; rewrite E1.
      - cbn [go]. apply mk_step; auto; try apply grows_refl; try discriminate.
        apply link_idle; [in_shape | exact E3|]. intros e' H. congruence.
      - pose proof (close_field_inv s x f I E2 E3 E4 E5 E6) as A.
        destruct (close_field s) as [s'|h|]; cbn [go]; [|destruct h; auto|auto].
        destruct A as (A1 & A2 & A3 & A4). apply mk_step; auto; try discriminate.
        apply link_idle; [in_shape | exact A3|]. intros e' H. congruence. }
    pose proof L as L0.
    shape L; cbn [is_in existsb expect_eqb orb at_start after_open after_close after_semi after_type];
      try (right; reflexivity); apply CL; try exact L0; in_shape.
  - (* ] *)
    pose proof L as L0.
    shape L; cbn [is_in existsb expect_eqb orb at_start after_open after_close after_semi after_type];
      try (right; reflexivity).
    pose proof (set_repeated_inv s after_type I (or_introl eq_refl) L0) as A.
    destruct (set_repeated s) as [s'|h|]; cbn [go]; [|destruct h; auto|auto].
    destruct A as (A1 & A2 & A3). apply mk_step; auto; discriminate.
  - (* ? *)
    pose proof L as L0.
    shape L; cbn [is_in existsb expect_eqb orb at_start after_open after_close after_semi after_type];
      try (right; reflexivity).
    pose proof (set_optional_inv s I L0) as A.
    destruct (set_optional s) as [s'|h|]; cbn [go]; [|destruct h; auto|auto].
    destruct A as (A1 & A2 & A3). apply mk_step; auto; discriminate.
  - (* . *)
    shape L; cbn [is_in existsb expect_eqb orb at_start after_open after_close after_semi after_type];
      try (right; reflexivity).
    cbn [step_ok]. split; [exact I|]. split; [right; left; split; [in_shape | exact L]|].
    split; [apply grows_refl|]. split; [|split; [reflexivity | discriminate]].
    destruct (negb (field_opened s) && negb (enum_opened s)); auto.
Qed.

(** ** Termination *)

(** how many more words an expectation can take without other tokens *)
Definition rank (xs : list expect) : nat :=
  if is_in xs XStructName || is_in xs XEnumName || is_in xs XGroupName || is_in xs XFieldName then 1
  else if is_in xs XFieldType then 2 else 0.

Lemma rank_le : forall xs, rank xs <= 2.
Proof. intro. unfold rank. repeat destruct (_ : bool); lia. Qed.

Lemma act_word_rank : forall w off brk xs s errs xs' s' errs' off',
  get_entity w = None ->
  act (TWord w off brk) xs s errs = AGo xs' s' errs' off' -> rank xs' < rank xs.
Proof.
  intros w off brk xs s errs xs' s' errs' off' K. cbn [act]. rewrite K. cbn [andb]. unfold rank.
  assert (G : forall ys r, go ys errs off r = AGo xs' s' errs' off' -> xs' = ys).
  { intros ys [x|h|]; cbn [go]; congruence. }
  destruct (is_in xs XStructName); [intro H; apply G in H; subst; cbn; lia|].
  destruct (is_in xs XEnumName); [intro H; apply G in H; subst; cbn; lia|].
  destruct (is_in xs XGroupName); [intro H; apply G in H; subst; cbn; lia|].
  destruct (is_in xs XFieldName).
  { destruct (enum_opened s); intro H; apply G in H; subst; cbn; lia. }
  destruct (is_in xs XFieldType); [|discriminate].
  destruct (enum_opened s).
  - destruct brk as [c|]; [destruct (Ascii.eqb c ";")|]; intro H; apply G in H; subst; cbn; lia.
  - intro H; apply G in H; subst; cbn; lia.
Qed.

Lemma single_not_entity : forall c, get_entity [c] = None.
Proof. intro c. unfold get_entity. cbn. rewrite !andb_false_r. reflexivity. Qed.

Lemma skipn_shorter : forall (A : Type) n (l : list A), 0 < n -> l <> [] -> length (skipn n l) < length l.
Proof.
  intros A n l L N. rewrite skipn_length. destruct l; [congruence|]. cbn [length]. lia.
Qed.

Lemma run_terminates : forall fuel content xs s errs,
  inv s -> link xs s -> 4 * length content + rank xs < fuel ->
  run fuel content xs s errs <> PRunning.
Proof.
  induction fuel as [|f IH]; intros content xs s errs I L F; [lia|].
  cbn [run]. pose proof (lex_cases content [] 0 (Forall_nil _)) as LC.
  destruct (lex content [] 0) as [t|e|] eqn:LX; [|discriminate|discriminate].
  pose proof (act_ok t xs s errs I L) as A.
  destruct (act t xs s errs) as [xs' s' errs' off|n|h] eqn:AE; cbn [step_ok] in A.
  - destruct A as (A1 & A2 & A3 & A4 & A5 & A6). subst off.
    apply IH; auto.
    assert (D : 0 < offset_of t \/ (offset_of t = 0 /\ exists c, exists o b, t = TWord [c] o b)).
    { destruct t; cbn [offset_of] in *; try congruence;
        try (destruct LC as [(B1 & B2 & B3 & B4) | (w' & c & B & _)]; [left; specialize (B2 eq_refl); lia | discriminate B]).
      destruct LC as [(B1 & B2 & B3 & B4) | (w' & c & B & B2 & B3 & B4 & B5)]; [left; specialize (B2 eq_refl); lia|].
      injection B as -> -> ->.
      destruct w' as [|x w'].
      - destruct content as [|y [|z content]]; cbn [length]; [right | right | left; lia];
          (split; [reflexivity | exists c; eexists; eexists; reflexivity]).
      - left. assert (H : x :: w' <> []) by discriminate. specialize (B5 H eq_refl). cbn [Nat.add]. lia. }
    destruct D as [D | (D & c & o & b & ->)].
    + assert (NE : content <> []).
      { intros ->. cbn [lex] in LX. injection LX as <-. congruence. }
      pose proof (skipn_shorter _ _ content D NE). pose proof (rank_le xs'). lia.
    + cbn [offset_of] in D. subst o. cbn [offset_of skipn].
      assert (R : rank xs' < rank xs) by (eapply act_word_rank; [apply single_not_entity | exact AE]).
      lia.
  - destruct (n =? 0); discriminate.
  - destruct h; [discriminate|destruct A].
Qed.

Lemma run_more_fuel : forall f content xs s errs k,
  run f content xs s errs <> PRunning -> run (f + k) content xs s errs = run f content xs s errs.
Proof.
  induction f as [|f IH]; intros content xs s errs k H; [now elim H|].
  cbn [Nat.add run] in *.
  destruct (lex content [] 0) as [t|e|]; auto.
  destruct (act t xs s errs) as [xs' s' errs' off|n|[|]]; auto.
Qed.

(** ** Accepted runs *)

Lemma run_accepted : forall f content xs s errs s',
  inv s -> link xs s -> run f content xs s errs = PAccepted s' ->
  errs = 0 /\ inv s' /\ grows s s' /\ exists xs', link xs' s'.
Proof.
  induction f as [|f IH]; intros content xs s errs s' I L H; [discriminate|].
  cbn [run] in H. destruct (lex content [] 0) as [t|e|]; try discriminate.
  pose proof (act_ok t xs s errs I L) as A.
  destruct (act t xs s errs) as [xs1 s1 errs1 off|n|[|]]; cbn [step_ok] in A; try discriminate.
  - destruct A as (A1 & A2 & A3 & A4 & A5 & A6).
    destruct (IH _ _ _ _ _ A1 A2 H) as (B1 & B2 & B3 & B4).
    split; [lia|]. split; [exact B2|]. split; [eapply grows_trans; eauto | exact B4].
  - destruct (n =? 0) eqn:Z; [|discriminate]. apply Nat.eqb_eq in Z. injection H as <-.
    destruct A as [[_ A] | A]; [|lia]. split; [lia|]. split; [exact I|].
    split; [apply grows_refl|]. exists xs. exact L.
Qed.

(** a text ending in a word character is never accepted *)
Lemma run_word_tail : forall f c xs s errs s', word_char c = true ->
  run f [c] xs s errs <> PAccepted s'.
Proof.
  induction f as [|f IH]; intros c xs s errs s' W; cbn [run]; [discriminate|].
  destruct (word_char_facts c W) as (W1 & W2 & W3 & W4 & W5).
  assert (LX : lex [c] [] 0 = Err LNumericFirst \/ lex [c] [] 0 = Ok (TWord [c] 0 None)).
  { cbn [lex]. cbv zeta. rewrite W1, W2, W3, W4, W5. cbn [negb andb orb].
    destruct (is_digit c); [left; reflexivity|]. cbn [andb].
    assert (negb (is_alnum c) && negb (Ascii.eqb c "_") = false) as ->.
    { unfold word_char in W. destruct (is_alnum c), (Ascii.eqb c "_"); auto. }
    right. reflexivity. }
  destruct LX as [-> | ->]; [discriminate|].
  cbn [act]. rewrite single_not_entity. cbn [andb].
  assert (G : forall ys r, match go ys errs 0 r with
      | AGo xs' s'0 errs' off => run f (skipn off [c]) xs' s'0 errs'
      | ABreak n => if n =? 0 then PAccepted s else PErrors
      | AHalt HStop => PStopped
      | AHalt HFuel => PRunning end <> PAccepted s').
  { intros ys [x|[|]|]; cbn [go skipn]; try discriminate. apply IH. exact W. }
  destruct (is_in xs XStructName); [apply G|].
  destruct (is_in xs XEnumName); [apply G|].
  destruct (is_in xs XGroupName); [apply G|].
  destruct (is_in xs XFieldName); [destruct (enum_opened s); apply G|].
  destruct (is_in xs XFieldType); [destruct (enum_opened s); apply G|].
  discriminate.
Qed.

Lemma skipn_pred_last : forall (A : Type) (front : list A) (c : A) n,
  n = length (front ++ [c]) - 1 -> skipn n (front ++ [c]) = [c].
Proof.
  intros A front c n ->. rewrite app_length. cbn [length].
  replace (length front + 1 - 1) with (length front) by lia.
  rewrite skipn_app, skipn_all, Nat.sub_diag. reflexivity.
Qed.

(** where an accepted run ends, and what happens if the text goes on *)
Lemma run_continue : forall f a xs s s1,
  inv s -> link xs s -> run f a xs s 0 = PAccepted s1 ->
  exists k rest xs1, lex rest [] 0 = Ok TEnd /\ link xs1 s1 /\
    forall F more, run (k + F) (a ++ more) xs s 0 = run F (rest ++ more) xs1 s1 0.
Proof.
  induction f as [|f IH]; intros a xs s s1 I L H; [discriminate|].
  cbn [run] in H. pose proof (lex_cases a [] 0 (Forall_nil _)) as LC.
  destruct (lex a [] 0) as [t|e|] eqn:LX; try discriminate.
  pose proof (act_ok t xs s 0 I L) as A.
  destruct (act t xs s 0) as [xs' s' errs' off|n|[|]] eqn:AE; cbn [step_ok] in A; try discriminate.
  - destruct A as (A1 & A2 & A3 & A4 & A5 & A6).
    assert (Z : errs' = 0) by (destruct (run_accepted _ _ _ _ _ _ A1 A2 H) as [Z _]; exact Z).
    subst errs'.
    destruct (IH _ _ _ _ A1 A2 H) as (k & rest & xs1 & K1 & K2 & K3).
    assert (LM : offset_of t <= length a /\ forall more, lex (a ++ more) [] 0 = Ok t).
    { assert (EW : forall w c, t = TWord (w ++ [c]) (0 + length a - 1) None -> word_char c = true ->
        (exists front, a = front ++ [c] \/ (a = [] /\ [] = front ++ [c])) -> False).
      { intros w c B1 B2 (front & [B3 | [_ B3]]); [|destruct front; discriminate].
        rewrite A5, B1 in H. cbn [offset_of Nat.add] in H. rewrite B3 in H.
        rewrite skipn_pred_last in H by reflexivity.
        eapply run_word_tail; [exact B2 | exact H]. }
      destruct t; try congruence;
        (destruct LC as [(B1 & _ & _ & B4) | (w' & c & B1 & B2 & B3 & _)];
           [split; [lia | exact B4] | exfalso; eapply EW; eauto]). }
    destruct LM as [LM1 LM2].
    exists (S k), rest, xs1. split; [exact K1|]. split; [exact K2|].
    intros F more. cbn [Nat.add run]. rewrite LM2, AE.
    rewrite <- K3. f_equal. rewrite A5. rewrite skipn_app.
    replace (offset_of t - length a) with 0 by lia. reflexivity.
  - destruct A as [[-> ->] | ->]; [|discriminate]. cbn [Nat.eqb] in H. injection H as <-.
    exists 0, a, xs. split; [exact LX|]. split; [exact L|]. reflexivity.
Qed.

(** cutting an accepted text *)
Lemma run_cut : forall f a b xs s s',
  inv s -> link xs s -> run f (a ++ b) xs s 0 = PAccepted s' ->
  (forall front c, a = front ++ [c] -> word_char c = false) ->
  exists s1, run f a xs s 0 = PAccepted s1 /\ grows s1 s'.
Proof.
  induction f as [|f IH]; intros a b xs s s' I L H W; [discriminate|].
  cbn [run] in H. cbn [run].
  pose proof (lex_cases a [] 0 (Forall_nil _)) as LC.
  destruct (lex a [] 0) as [t|e|] eqn:LX.
  2:{ rewrite LC in H. discriminate. }
  2:{ destruct LC. }
  pose proof (act_ok t xs s 0 I L) as A.
  destruct (match t with TEnd => true | _ => false end) eqn:TE.
  - destruct t; try discriminate. cbn [act]. cbn [Nat.eqb]. exists s. split; [reflexivity|].
    apply (run_accepted (S f) (a ++ b) xs s 0 s' I L). cbn [run]. exact H.
  - assert (NE : t <> TEnd) by (intros ->; discriminate).
    assert (LM : offset_of t <= length a /\ lex (a ++ b) [] 0 = Ok t).
    { destruct t; try congruence;
        (destruct LC as [(B1 & _ & _ & B4) | (w' & c & B1 & B2 & (front & B3) & _)];
         [split; [lia | apply B4]|]; exfalso;
         destruct B3 as [B3 | [_ B3]]; [apply W in B3; congruence | destruct front; discriminate]). }
    destruct LM as [LM1 LM2]. rewrite LM2 in H.
    destruct (act t xs s 0) as [xs1 s1 errs1 off|n|[|]] eqn:AE; cbn [step_ok] in A; try discriminate.
    + destruct A as (A1 & A2 & A3 & A4 & A5 & A6).
      assert (Z : errs1 = 0) by (destruct (run_accepted _ _ _ _ _ _ A1 A2 H) as [Z _]; exact Z).
      subst errs1 off. rewrite skipn_app in H.
      replace (offset_of t - length a) with 0 in H by lia. cbn [skipn] in H.
      eapply IH; [exact A1 | exact A2 | exact H |].
      intros front c E. apply (W (firstn (offset_of t) a ++ front) c).
      rewrite <- app_assoc, <- E. symmetry. apply firstn_skipn.
    + destruct A as [[A _] | ->]; [congruence | discriminate].
Qed.

(** the last character of a text ending in a word is never consumed *)
Lemma lex_word_end : forall a c str p t, word_char c = true -> lex (a ++ [c]) str p = Ok t ->
  t <> TEnd /\ offset_of t <= p + length a.
Proof.
  induction a as [|x a IH]; intros c str p t W H.
  - destruct (word_char_facts c W) as (W1 & W2 & W3 & W4 & W5).
    cbn [app lex] in H. cbv zeta in H. rewrite W1, W2, W3, W4, W5 in H. cbn [negb andb orb] in H.
    assert (N : negb (is_alnum c) && negb (Ascii.eqb c "_") = false).
    { unfold word_char in W. destruct (is_alnum c), (Ascii.eqb c "_"); auto. }
    rewrite N in H. destruct (is_digit c && _); [discriminate|].
    destruct str as [|y str]; cbn [app] in H; injection H as <-; (split; [discriminate|]);
      cbn [offset_of length]; lia.
  - assert (K : forall str, lex (a ++ [c]) str (S p) = Ok t -> t <> TEnd /\ offset_of t <= p + length (x :: a)).
    { intros str' H'. apply IH in H' as [A B]; auto. cbn [length]. split; [exact A | lia]. }
    cbn [app lex] in H. cbv zeta in H. cbn [length].
    destruct (negb (is_ascii x)); [discriminate|].
    destruct (is_digit x && _); [discriminate|].
    destruct (is_ws x && _); [apply (K _ H)|].
    destruct (is_break x && _).
    { repeat (destruct (Ascii.eqb x _)); injection H as <-; cbn [offset_of]; (split; [discriminate | lia]). }
    destruct (Ascii.eqb x "[" && _); [apply (K _ H)|].
    destruct (Ascii.eqb x "]").
    { destruct str as [|d str]; [|destruct (Ascii.eqb d "["); [|discriminate]];
        injection H as <-; cbn [offset_of]; (split; [discriminate | lia]). }
    destruct (is_ws x || is_break x || Ascii.eqb x "[").
    { injection H as <-. cbn [offset_of]. split; [discriminate | lia]. }
    destruct (negb (is_alnum x) && negb (Ascii.eqb x "_")); [discriminate|]. apply (K _ H).
Qed.

Lemma run_ends_in_word : forall f a c xs s errs s', inv s -> link xs s -> word_char c = true ->
  run f (a ++ [c]) xs s errs <> PAccepted s'.
Proof.
  induction f as [|f IH]; intros a c xs s errs s' I L W H; [discriminate|].
  cbn [run] in H. destruct (lex (a ++ [c]) [] 0) as [t|e|] eqn:LX; try discriminate.
  destruct (lex_word_end a c [] 0 t W LX) as [N O].
  pose proof (act_ok t xs s errs I L) as A.
  destruct (act t xs s errs) as [xs1 s1 errs1 off|n|[|]]; cbn [step_ok] in A; try discriminate.
  - destruct A as (A1 & A2 & A3 & A4 & A5 & A6). subst off.
    rewrite skipn_app in H. replace (offset_of t - length a) with 0 in H by lia. cbn [skipn] in H.
    eapply IH; eauto.
  - destruct A as [[A _] | ->]; [congruence | discriminate].
Qed.
