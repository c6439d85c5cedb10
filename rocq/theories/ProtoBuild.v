(** Reading a well-scoped declaration succeeds and adds exactly its entities. *)
From Coq Require Import String Ascii NArith List Arith Lia Bool.
From Verif Require Import Bytes ProtoModel ProtoProofs ProtoInv ProtoRun ProtoGrammar ProtoElab ProtoTree.
Import ListNotations.
Close Scope string_scope.
Open Scope list_scope.
Open Scope nat_scope.

Lemma elab_itype_open : forall p s e i, c_enum s = Some e -> e_cur e = Some i ->
  exists s' , elab_itype s p = Some s' /\ frame s s' /\ c_struct s' = c_struct s /\ c_field s' = c_field s /\
    seq s' = seq s /\
    c_enum s' = Some (mkEnum (e_id e) (e_parent e) (e_name e) (e_items e) (e_path e)
                        (Some (mkItem (i_name i) (i_types i) (i_ref i) (i_ref_path i) (i_rep i) (i_tpath i ++ p)))).
Proof.
  induction p as [|t p IH]; intros s e i CE CI.
  - exists s. cbn [elab_itype]. rewrite app_nil_r. split; [reflexivity|]. split; [apply frame_refl|].
    repeat split; auto. rewrite CE. destruct e; cbn in *. subst. destruct i; reflexivity.
  - cbn [elab_itype]. unfold set_enum_type. rewrite CE. cbv zeta. rewrite CI. cbn [ok obind].
    match goal with |- context [elab_itype ?s1 p] => set (s1' := s1) end.
    match goal with [ s1' := set_c_enum _ (Some ?f) |- _ ] =>
      destruct (IH s1' f) with (i := mkItem (i_name i) (i_types i) (i_ref i) (i_ref_path i) (i_rep i) (i_tpath i ++ [t]))
        as (s' & A & B & D & E & G & H) end; [reflexivity | reflexivity|].
    exists s'. split; [exact A|]. split; [exact B|]. split; [exact D|]. split; [exact E|]. split; [exact G|].
    rewrite H. cbn [e_id e_parent e_name e_items e_path i_name i_types i_ref i_ref_path i_rep i_tpath].
    rewrite <- app_assoc. reflexivity.
Qed.

Lemma accept_itype_some : forall s i, type_res s (i_tpath i) -> exists i', accept_itype s (group_id s) i = Ok i' /\
  i_tpath i' = i_tpath i /\ i_rep i' = i_rep i.
Proof.
  intros s i [N H]. unfold accept_itype. destruct (i_tpath i) as [|t p] eqn:E; [congruence|].
  destruct ((match p with [] => true | _ => false end) && is_primitive t) eqn:P.
  - eexists. split; [reflexivity|]. repeat split; auto.
  - destruct (resolve s (group_id s) (t :: p)) as [[gs id]|].
    + eexists. split; [reflexivity|]. repeat split; auto.
    + exfalso. destruct H as [(k & K1 & K2) | H]; [|congruence]. injection K1 as -> ->. rewrite K2 in P. discriminate.
Qed.

Definition item_res (s : store) (i : idecl) : Prop :=
  match i with ISimple _ => True | ITyped p _ _ => type_res s p end.

Lemma item_elab : forall s i e, c_enum s = Some e -> e_cur e = None -> item_res s i ->
  exists s' i', elab_item s i = Some s' /\ frame s s' /\ c_struct s' = c_struct s /\ c_field s' = c_field s /\
    seq s' = seq s /\ idecl_of i' = i /\
    c_enum s' = Some (mkEnum (e_id e) (e_parent e) (e_name e) (e_items e ++ [i']) (e_path e) None).
Proof.
  intros s [n | p rep n] e CE EC TR; cbn [elab_item item_res] in *.
  - unfold set_simple. rewrite CE, EC. cbv zeta. cbn [ok]. eexists _, _. split; [reflexivity|].
    split; [repeat split|]. repeat split; auto.
  - destruct p as [|t p]; [destruct TR; congruence|]. cbn [elab_itype]. unfold set_enum_type. rewrite CE. cbv zeta.
    rewrite EC. cbn [ok obind i_name i_types i_ref i_ref_path i_rep i_tpath app].
    match goal with |- context [elab_itype ?s1 p] => set (s1' := s1) end.
    match goal with [ s1' := set_c_enum _ (Some ?f) |- _ ] =>
      destruct (elab_itype_open p s1' f) with (i := mkItem [] None None [] false [t])
        as (s1 & A & B & D & E & G & H) end; [reflexivity | reflexivity|].
    rewrite A. cbn [obind]. cbn [e_id e_parent e_name e_items e_path i_name i_types i_ref i_ref_path i_rep i_tpath app] in H.
    assert (F1 : frame s s1) by exact B.
    assert (S2 : exists s2 i2, (if rep then ok (set_repeated s1) else Some s1) = Some s2 /\ frame s s2 /\
       c_struct s2 = c_struct s /\ c_field s2 = c_field s /\ seq s2 = seq s /\
       c_enum s2 = Some (mkEnum (e_id e) (e_parent e) (e_name e) (e_items e) (e_path e) (Some i2)) /\
       i_rep i2 = rep /\ i_tpath i2 = t :: p).
    { destruct rep.
      - unfold set_repeated. rewrite H. cbn [e_cur ok e_id e_parent e_name e_items e_path]. eexists _, _.
        split; [reflexivity|]. split; [exact F1|]. split; [exact D|]. split; [exact E|]. split; [exact G|].
        split; [reflexivity|]. split; reflexivity.
      - eexists _, _. split; [reflexivity|]. split; [exact F1|]. split; [exact D|]. split; [exact E|]. split; [exact G|].
        split; [exact H|]. split; reflexivity. }
    destruct S2 as (s2 & i2 & B1 & B2 & B3 & B4 & B5 & B6 & B7 & B8). rewrite B1. cbn [obind].
    unfold set_enum_name. rewrite B6. cbn [e_cur].
    destruct (accept_itype_some s2 i2) as (i3 & C1 & C2 & C3).
    { rewrite B8. eapply type_res_frame; eauto. }
    rewrite C1. cbn [bind ok]. eexists _, _. split; [reflexivity|]. split; [exact B2|]. split; [exact B3|].
    split; [exact B4|]. split; [exact B5|]. split; [|reflexivity].
    unfold idecl_of. cbn [i_tpath i_rep i_name]. rewrite C2, B8, C3, B7. reflexivity.
Qed.

Lemma items_elab : forall is s e, c_enum s = Some e -> e_cur e = None -> Forall (item_res s) is ->
  exists s' l, elab_list elab_item s is = Some s' /\ frame s s' /\ c_struct s' = c_struct s /\ c_field s' = c_field s /\
    seq s' = seq s /\ map idecl_of l = is /\
    c_enum s' = Some (mkEnum (e_id e) (e_parent e) (e_name e) (e_items e ++ l) (e_path e) None).
Proof.
  induction is as [|i is IH]; intros s e CE EC TR.
  - exists s, []. rewrite app_nil_r. split; [reflexivity|]. split; [apply frame_refl|].
    repeat split; auto. rewrite CE. destruct e; cbn in *; subst; reflexivity.
  - inversion TR; subst.
    destruct (item_elab s i e CE EC H1) as (s1 & i' & A1 & A2 & A3 & A4 & A5 & A6 & A7).
    destruct (IH s1 _ A7 eq_refl) as (s2 & l & B1 & B2 & B3 & B4 & B5 & B6 & B7).
    + eapply Forall_impl; [|exact H2]. intros [n | p r n]; cbn [item_res]; auto. apply type_res_frame. exact A2.
    + exists s2, (i' :: l). split.
      { change (elab_list elab_item s (i :: is)) with (obind (elab_item s i) (fun s => elab_list elab_item s is)).
        rewrite A1. exact B1. }
      split; [eapply frame_trans; eauto|]. split; [congruence|]. split; [congruence|].
      split; [congruence|]. split; [cbn [map]; congruence|].
      rewrite B7. cbn [e_id e_parent e_name e_items e_path]. rewrite <- app_assoc. reflexivity.
Qed.

(** ** Declarations *)

Fixpoint size (d : decl) : nat :=
  match d with
  | DStruct _ fs => S (length fs)
  | DEnum _ _ => 1
  | DGroup _ ds => S ((fix go ds := match ds with [] => 0 | d :: ds => size d + go ds end) ds)
  end.
Fixpoint sizes (ds : list decl) : nat := match ds with [] => 0 | d :: ds => size d + sizes ds end.
Lemma size_group : forall n ds, size (DGroup n ds) = S (sizes ds).
Proof. reflexivity. Qed.

(** ids and parents a tree gets when ids start at [i] *)
Fixpoint flat (p i : nat) (d : decl) : list (nat * (nat * head)) :=
  match d with
  | DStruct n fs => [(i, (p, HStruct n fs))]
  | DEnum n is => [(i, (p, HEnum n is))]
  | DGroup n ds => (i, (p, HGroup n)) ::
      (fix go j ds := match ds with [] => [] | d :: ds => flat i j d ++ go (j + size d) ds end) (S i) ds
  end.
Fixpoint flats (p i : nat) (ds : list decl) : list (nat * (nat * head)) :=
  match ds with [] => [] | d :: ds => flat p i d ++ flats p (i + size d) ds end.
Lemma flat_group : forall p i n ds, flat p i (DGroup n ds) = (i, (p, HGroup n)) :: flats i (S i) ds.
Proof.
  intros p i n ds. cbn [flat]. f_equal. generalize (S i) as j.
  induction ds as [|d ds IH]; intro j; [reflexivity|]. cbn [flats]. rewrite IH. reflexivity.
Qed.
Lemma names_group : forall own n ds, names own (DGroup n ds) = flat_map (names (own ++ [n])) ds.
Proof. intros own n ds. cbn [names]. induction ds as [|d ds IH]; [reflexivity|]. cbn [flat_map]. rewrite <- IH. reflexivity. Qed.

Record scope (s : store) (own : list text) (env : list (list text)) : Prop := mkScope {
  S_inv : inv s;
  S_idle : c_struct s = None /\ c_enum s = None /\ c_field s = None;
  S_own : scope_path s (group_id s) own;
  S_uniq : guniq s;
  S_path : (path s = [] /\ c_group s = None) \/
           (exists g, c_group s = Some g /\ path s <> [] /\ last (path s) 0 = g_id g);
  S_env : env_ok s env
}.

Definition same_place (s s' : store) : Prop :=
  path s' = path s /\ map gkey (olist (c_group s')) = map gkey (olist (c_group s)).

Lemma same_place_id : forall s s', same_place s s' -> group_id s' = group_id s.
Proof.
  intros s s' [_ H]. unfold group_id. destruct (c_group s), (c_group s'); cbn in H; try discriminate; auto.
  injection H as A _ _. exact A.
Qed.

Lemma same_place_refl : forall s, same_place s s.
Proof. split; reflexivity. Qed.
Lemma same_place_trans : forall a b c, same_place a b -> same_place b c -> same_place a c.
Proof. intros a b c [A B] [A' B']. split; congruence. Qed.

Lemma path_same_place : forall s s', same_place s s' ->
  (path s = [] /\ c_group s = None) \/ (exists g, c_group s = Some g /\ path s <> [] /\ last (path s) 0 = g_id g) ->
  (path s' = [] /\ c_group s' = None) \/ (exists g, c_group s' = Some g /\ path s' <> [] /\ last (path s') 0 = g_id g).
Proof.
  intros s s' [P K] [[A B] | (g & A & B & D)].
  - left. rewrite P, B in *. split; [exact A|]. destruct (c_group s'); [discriminate | reflexivity].
  - right. rewrite A in K. destruct (c_group s') as [g'|] eqn:G'; [|discriminate]. cbn in K. injection K as K1 K2 K3.
    exists g'. rewrite P. split; [reflexivity|]. split; [exact B | congruence].
Qed.

(** what reading a declaration does *)
Definition reads (s : store) (own : list text) (env : list (list text)) (d : decl) (s' : store) : Prop :=
  scope s' own (env ++ names own d) /\ same_place s s' /\ seq s' = seq s + size d /\ ext s s' /\
  (forall i p h, is_ent s' i p h <-> is_ent s i p h \/ In (i, (p, h)) (flat (group_id s) (S (seq s)) d)).

Lemma has_entity_ext : forall s s' p n, ext s s' -> has_entity s p n -> has_entity s' p n.
Proof.
  intros s s' p n (A & B & _) [(x & H & H') | (x & H & H')]; [left | right]; exists x; auto.
Qed.

Lemma env_ext : forall s s' env, ext s s' -> env_ok s env -> env_ok s' env.
Proof.
  intros s s' env X E q Q. destruct (E q Q) as (gq & n & pid & A & B & D).
  exists gq, n, pid. split; [exact A|]. split; [eapply scope_ext; eauto | eapply has_entity_ext; eauto].
Qed.

(** a closed entity is added, groups keep their names *)
Lemma bind_struct_frame : forall s i,
  structs (bind_struct_id s i) = structs s /\ enums (bind_struct_id s i) = enums s /\
  groups (bind_struct_id s i) = groups s /\ path (bind_struct_id s i) = path s /\
  seq (bind_struct_id s i) = seq s /\ c_struct (bind_struct_id s i) = c_struct s /\
  c_enum (bind_struct_id s i) = c_enum s /\ c_field (bind_struct_id s i) = c_field s /\
  map gkey (olist (c_group (bind_struct_id s i))) = map gkey (olist (c_group s)).
Proof. intros s i. unfold bind_struct_id. destruct (c_group s) eqn:G; cbn; rewrite ?G; repeat split; auto. Qed.

Lemma bind_enum_frame : forall s i,
  structs (bind_enum_id s i) = structs s /\ enums (bind_enum_id s i) = enums s /\
  groups (bind_enum_id s i) = groups s /\ path (bind_enum_id s i) = path s /\
  seq (bind_enum_id s i) = seq s /\ c_struct (bind_enum_id s i) = c_struct s /\
  c_enum (bind_enum_id s i) = c_enum s /\ c_field (bind_enum_id s i) = c_field s /\
  map gkey (olist (c_group (bind_enum_id s i))) = map gkey (olist (c_group s)).
Proof. intros s i. unfold bind_enum_id. destruct (c_group s) eqn:G; cbn; rewrite ?G; repeat split; auto. Qed.

Lemma inv_bind_struct : forall s, inv s -> inv (bind_struct_id (set_seq s (S (seq s))) (S (seq s))).
Proof.
  intros s I. destruct (bind_struct_frame (set_seq s (S (seq s))) (S (seq s))) as (A1&A2&A3&A4&A5&A6&A7&A8&A9).
  eapply inv_same; [..|exact I]; try (etransitivity; [eassumption | reflexivity]).
  - rewrite A5. cbn. lia.
  - rewrite A3. reflexivity.
Qed.

Lemma inv_bind_enum : forall s, inv s -> inv (bind_enum_id (set_seq s (S (seq s))) (S (seq s))).
Proof.
  intros s I. destruct (bind_enum_frame (set_seq s (S (seq s))) (S (seq s))) as (A1&A2&A3&A4&A5&A6&A7&A8&A9).
  eapply inv_same; [..|exact I]; try (etransitivity; [eassumption | reflexivity]).
  - rewrite A5. cbn. lia.
  - rewrite A3. reflexivity.
Qed.

Lemma has_group_same : forall s s', groups s' = groups s ->
  map gkey (olist (c_group s')) = map gkey (olist (c_group s)) ->
  forall i p n, has_group s' i p n <-> has_group s i p n.
Proof. intros s s' A B i p n. unfold has_group, all_groups. rewrite !map_app, A, B. tauto. Qed.

Lemma type_ok_res : forall s own env p, scope s own env -> p <> [] -> type_ok env own p -> type_res s p.
Proof.
  intros s own env p SC N [H | H]; split; auto. right.
  destruct SC. eapply visible_resolves; eauto.
Qed.

Lemma not_nil_syn : forall p, path_ok_syn p -> p <> [].
Proof. intros [|t p] H; [destruct H | discriminate]. Qed.

Lemma guniq_same : forall s s', (forall i p n, has_group s' i p n <-> has_group s i p n) -> guniq s -> guniq s'.
Proof. intros s s' H U i j p n A B. apply H in A. apply H in B. eapply U; eauto. Qed.

Lemma scope_path_same : forall s s', (forall i p n, has_group s' i p n <-> has_group s i p n) ->
  forall i q, scope_path s i q -> scope_path s' i q.
Proof. intros s s' H i q K. induction K; [constructor|]. eapply SP_group; [apply H; eassumption | exact IHK]. Qed.

Lemma link_start : forall s own env, scope s own env -> link after_close s.
Proof.
  intros s own env SC. destruct (S_idle _ _ _ SC) as (A & B & D). apply link_idle; [in_shape | exact D|].
  intros e E. congruence.
Qed.

Lemma elab_inv : forall d s s' own env, decl_syn d -> scope s own env -> elab s d = Some s' ->
  inv s' /\ ext s s'.
Proof.
  intros d s s' own env SY SC H.
  destruct (decl_proc d s s' after_close SY (or_intror (or_intror eq_refl)) H) as [_ K].
  destruct (K (S_inv _ _ _ SC) (link_start _ _ _ SC)) as (I & _ & G). split; [exact I | apply G].
Qed.

Lemma struct_reads : forall n fs s own env, decl_syn (DStruct n fs) -> wf_decl own env (DStruct n fs) ->
  scope s own env -> exists s', elab s (DStruct n fs) = Some s' /\ reads s own env (DStruct n fs) s'.
Proof.
  intros n fs s own env SY [ND TY] SC.
  destruct (S_idle _ _ _ SC) as (CS & CE & CF).
  assert (TR : Forall (fun f => type_res s (fd_path f)) fs).
  { cbn [decl_syn] in SY. rewrite Forall_forall in *. intros f F.
    eapply type_ok_res; eauto. apply not_nil_syn. auto. }
  set (b := bind_struct_id (set_seq s (S (seq s))) (S (seq s))).
  destruct (bind_struct_frame (set_seq s (S (seq s))) (S (seq s))) as (A1&A2&A3&A4&A5&A6&A7&A8&A9). fold b in A1,A2,A3,A4,A5,A6,A7,A8,A9.
  assert (HG : forall i p m, has_group b i p m <-> has_group s i p m) by (apply has_group_same; assumption).
  assert (PL : same_place s b) by (split; assumption).
  pose proof (same_place_id _ _ PL) as GI.
  destruct (path_ok b (inv_bind_struct s (S_inv _ _ _ SC))) as (pt & P1 & P2).
  assert (OS : open_struct s n = Ok (set_c_struct b (Some (mkStruct (S (seq s)) (group_id s) n [] pt)))).
  { unfold open_struct. rewrite CS, CE. cbv zeta. cbn [set_seq seq]. fold (set_seq s (S (seq s))). fold b.
    rewrite P1. cbn [bind]. rewrite A5, GI. reflexivity. }
  set (s1 := set_c_struct b _) in OS.
  assert (TR1 : Forall (fun f => type_res s1 (fd_path f)) fs).
  { eapply Forall_impl; [|exact TR]. intros f [N R]. split; [exact N|]. destruct R as [R | R]; [left; exact R|right].
    unfold resolve in *. change (group_id s1) with (group_id b). rewrite GI.
    assert (Q : forall p a, find_by_path s1 a p = find_by_path s a p).
    { induction p as [|t p IH]; intro a; [reflexivity|]. cbn [find_by_path].
      change (enums s1) with (enums b). change (structs s1) with (structs b). change (groups s1) with (groups b).
      rewrite A1, A2, A3. destruct p; [reflexivity|]. cbn [set_seq groups]. destruct (find _ (groups s)); [|reflexivity].
      rewrite IH. reflexivity. }
    rewrite !Q. exact R. }
  destruct (fields_elab fs s1 (mkStruct (S (seq s)) (group_id s) n [] pt)) as (s2 & l & B1 & B2 & B3 & B4 & B5 & B6 & B7);
    [reflexivity | exact (eq_trans A7 CE) | exact (eq_trans A8 CF) | exact TR1 | exact ND|].
  cbn [s_id s_parent s_name s_fields s_path app] in B7.
  assert (EL : elab s (DStruct n fs) = Some (set_c_struct (set_structs s2 (structs s2 ++ [mkStruct (S (seq s)) (group_id s) n l pt])) None)).
  { cbn [elab]. rewrite OS. cbn [ok obind]. rewrite B1. cbn [obind]. unfold close. rewrite B3, B7. reflexivity. }
  eexists. split; [exact EL|]. destruct (elab_inv _ _ _ _ _ SY SC EL) as [I' X'].
  set (s' := set_c_struct (set_structs s2 _) None) in *. destruct B2 as (F1 & F2 & F3 & F4 & F5).
  assert (HG' : forall i p m, has_group s' i p m <-> has_group s i p m).
  { intros i p m. rewrite <- HG. apply has_group_same; [exact F3 | cbn; rewrite F4; reflexivity]. }
  assert (PL' : same_place s s').
  { split; [etransitivity; [exact F5 | exact A4]|]. change (c_group s') with (c_group s2). rewrite F4. exact A9. }
  assert (SS : structs s' = structs s ++ [mkStruct (S (seq s)) (group_id s) n l pt]).
  { unfold s'. cbn [set_c_struct set_structs structs]. rewrite F1. change (structs s1) with (structs b). rewrite A1. reflexivity. }
  split; [constructor|].
  - exact I'.
  - repeat split; [exact B3 | exact B4].
  - rewrite (same_place_id _ _ PL'). eapply scope_path_same; [exact HG' | apply (S_own _ _ _ SC)].
  - eapply guniq_same; [exact HG' | apply (S_uniq _ _ _ SC)].
  - eapply path_same_place; [exact PL' | apply (S_path _ _ _ SC)].
  - intros q Q. apply in_app_or in Q as [Q | Q]; [eapply env_ext; [exact X' | apply (S_env _ _ _ SC) | exact Q]|].
    destruct Q as [<- | []]. exists own, n, (group_id s). split; [reflexivity|].
    split; [eapply scope_path_same; [exact HG' | apply (S_own _ _ _ SC)]|].
    left. eexists. rewrite SS. split; [apply in_or_app; right; left; reflexivity|]. split; reflexivity.
  - split; [exact PL'|]. split.
    { unfold s'. cbn [set_c_struct set_structs seq size]. rewrite B5. change (seq s1) with (seq b). rewrite A5. cbn [set_seq seq]. lia. }
    split; [exact X'|]. intros i p h. unfold is_ent. rewrite SS.
    assert (EE : enums s' = enums s) by (unfold s'; cbn [set_c_struct set_structs enums]; rewrite F2; exact A2).
    rewrite EE. cbn [flat]. setoid_rewrite HG'. split.
    + intros [(x & X & H) | H]; [|left; right; exact H].
      apply in_app_or in X as [X | [<- | []]]; [left; left; exists x; auto|]. right.
      cbn [s_id s_parent s_name s_fields] in H. destruct H as (<- & <- & ->). rewrite B6. left. reflexivity.
    + intros [[(x & X & H) | H] | [H | []]].
      * left. exists x. split; [apply in_or_app; auto | exact H].
      * right. exact H.
      * injection H as <- <- <-. left. eexists. split; [apply in_or_app; right; left; reflexivity|].
        cbn [s_id s_parent s_name s_fields]. rewrite B6. auto.
Qed.

Lemma enum_reads : forall n is s own env, decl_syn (DEnum n is) -> wf_decl own env (DEnum n is) ->
  scope s own env -> exists s', elab s (DEnum n is) = Some s' /\ reads s own env (DEnum n is) s'.
Proof.
  intros n is s own env SY TY SC. cbn [wf_decl] in TY.
  destruct (S_idle _ _ _ SC) as (CS & CE & CF).
  assert (TR : Forall (item_res s) is).
  { cbn [decl_syn] in SY. rewrite Forall_forall in *. intros [m | p r m] F; cbn [item_res]; [exact I|].
    eapply type_ok_res; eauto.
    - apply not_nil_syn. apply SY in F. apply F.
    - apply TY in F. exact F. }
  set (b := bind_enum_id (set_seq s (S (seq s))) (S (seq s))).
  destruct (bind_enum_frame (set_seq s (S (seq s))) (S (seq s))) as (A1&A2&A3&A4&A5&A6&A7&A8&A9). fold b in A1,A2,A3,A4,A5,A6,A7,A8,A9.
  assert (HG : forall i p m, has_group b i p m <-> has_group s i p m) by (apply has_group_same; assumption).
  assert (PL : same_place s b) by (split; assumption).
  pose proof (same_place_id _ _ PL) as GI.
  destruct (path_ok b (inv_bind_enum s (S_inv _ _ _ SC))) as (pt & P1 & P2).
  assert (OS : open_enum s n = Ok (set_c_enum b (Some (mkEnum (S (seq s)) (group_id s) n [] pt None)))).
  { unfold open_enum. rewrite CS, CE. cbv zeta. cbn [set_seq seq]. fold (set_seq s (S (seq s))). fold b.
    rewrite P1. cbn [bind]. rewrite A5, GI. reflexivity. }
  set (s1 := set_c_enum b _) in OS.
  assert (TR1 : Forall (item_res s1) is).
  { eapply Forall_impl; [|exact TR]. intros [m | q r m]; cbn [item_res]; [auto|].
    intros [N R]. split; [exact N|]. destruct R as [R | R]; [left; exact R|right].
    unfold resolve in *. change (group_id s1) with (group_id b). rewrite GI.
    assert (Q : forall p a, find_by_path s1 a p = find_by_path s a p).
    { induction p as [|t p IH]; intro a; [reflexivity|]. cbn [find_by_path].
      change (enums s1) with (enums b). change (structs s1) with (structs b). change (groups s1) with (groups b).
      rewrite A1, A2, A3. destruct p; [reflexivity|]. cbn [set_seq groups]. destruct (find _ (groups s)); [|reflexivity].
      rewrite IH. reflexivity. }
    rewrite !Q. exact R. }
  destruct (items_elab is s1 (mkEnum (S (seq s)) (group_id s) n [] pt None)) as (s2 & l & B1 & B2 & B3 & B4 & B5 & B6 & B7);
    [reflexivity | reflexivity | exact TR1 |].
  cbn [e_id e_parent e_name e_items e_path app] in B7.
  assert (EL : elab s (DEnum n is) = Some (set_c_enum (set_enums s2 (enums s2 ++ [mkEnum (S (seq s)) (group_id s) n l pt None])) None)).
  { cbn [elab]. rewrite OS. cbn [ok obind]. rewrite B1. cbn [obind]. unfold close. rewrite B7. reflexivity. }
  eexists. split; [exact EL|]. destruct (elab_inv _ _ _ _ _ SY SC EL) as [I' X'].
  set (s' := set_c_enum (set_enums s2 _) None) in *. destruct B2 as (F1 & F2 & F3 & F4 & F5).
  assert (HG' : forall i p m, has_group s' i p m <-> has_group s i p m).
  { intros i p m. rewrite <- HG. apply has_group_same; [exact F3 | cbn; rewrite F4; reflexivity]. }
  assert (PL' : same_place s s').
  { split; [etransitivity; [exact F5 | exact A4]|]. change (c_group s') with (c_group s2). rewrite F4. exact A9. }
  assert (SS : enums s' = enums s ++ [mkEnum (S (seq s)) (group_id s) n l pt None]).
  { unfold s'. cbn [set_c_enum set_enums enums]. rewrite F2. change (enums s1) with (enums b). rewrite A2. reflexivity. }
  split; [constructor|].
  - exact I'.
  - split; [exact (eq_trans B3 (eq_trans A6 CS))|]. split; [reflexivity | exact (eq_trans B4 (eq_trans A8 CF))].
  - rewrite (same_place_id _ _ PL'). eapply scope_path_same; [exact HG' | apply (S_own _ _ _ SC)].
  - eapply guniq_same; [exact HG' | apply (S_uniq _ _ _ SC)].
  - eapply path_same_place; [exact PL' | apply (S_path _ _ _ SC)].
  - intros q Q. apply in_app_or in Q as [Q | Q]; [eapply env_ext; [exact X' | apply (S_env _ _ _ SC) | exact Q]|].
    destruct Q as [<- | []]. exists own, n, (group_id s). split; [reflexivity|].
    split; [eapply scope_path_same; [exact HG' | apply (S_own _ _ _ SC)]|].
    right. eexists. rewrite SS. split; [apply in_or_app; right; left; reflexivity|]. split; reflexivity.
  - split; [exact PL'|]. split.
    { unfold s'. cbn [set_c_enum set_enums seq size]. rewrite B5. change (seq s1) with (seq b). rewrite A5. cbn [set_seq seq]. lia. }
    split; [exact X'|]. intros i p h. unfold is_ent. rewrite SS.
    assert (EE : structs s' = structs s) by (unfold s'; cbn [set_c_enum set_enums structs]; rewrite F1; exact A1).
    rewrite EE. cbn [flat]. setoid_rewrite HG'. split.
    + intros [H | [(x & X & H) | H]]; [left; left; exact H | | left; right; right; exact H].
      apply in_app_or in X as [X | [<- | []]]; [left; right; left; exists x; auto|]. right.
      cbn [e_id e_parent e_name e_items] in H. destruct H as (<- & <- & ->). rewrite B6. left. reflexivity.
    + intros [[H | [(x & X & H) | H]] | [H | []]].
      * left. exact H.
      * right. left. exists x. split; [apply in_or_app; auto | exact H].
      * right. right. exact H.
      * injection H as <- <- <-. right. left. eexists. split; [apply in_or_app; right; left; reflexivity|].
        cbn [e_id e_parent e_name e_items]. rewrite B6. auto.
Qed.

(** ** Groups *)

Lemma elab_decls_cons : forall s d ds, elab_decls s (d :: ds) = obind (elab s d) (fun s => elab_decls s ds).
Proof. reflexivity. Qed.

Definition reads_all (s : store) (own : list text) (env : list (list text)) (ds : list decl) (s' : store) : Prop :=
  scope s' own (env ++ flat_map (names own) ds) /\ same_place s s' /\ seq s' = seq s + sizes ds /\ ext s s' /\
  (forall i p h, is_ent s' i p h <-> is_ent s i p h \/ In (i, (p, h)) (flats (group_id s) (S (seq s)) ds)).

Definition fresh_group (s : store) (n : text) : Prop := forall i, ~ has_group s i (group_id s) n.

Definition succeeds (d : decl) : Prop := forall s own env,
  decl_syn d -> wf_decl own env d -> scope s own env -> Forall (fresh_group s) (group_name d) ->
  exists s', elab s d = Some s' /\ reads s own env d s'.

Lemma flat_parent : forall d p i j q h, In (j, (q, h)) (flat p i d) -> (q = p /\ j = i) \/ i <= q.
Proof.
  induction d as [n fs | n is | n ds IH] using decl_ind'; intros p i j q h H.
  - destruct H as [H | []]. injection H as <- <- <-. auto.
  - destruct H as [H | []]. injection H as <- <- <-. auto.
  - rewrite flat_group in H. destruct H as [H | H]; [injection H as <- <- <-; auto|]. right.
    assert (G : forall ds k, i <= k -> Forall (fun d => forall p i j q h, In (j, (q, h)) (flat p i d) -> (q = p /\ j = i) \/ i <= q) ds ->
      In (j, (q, h)) (flats i k ds) -> i <= q).
    { clear. induction ds as [|d ds IHs]; intros k L F H; [destruct H|]. inversion F; subst. cbn [flats] in H.
      apply in_app_or in H as [H | H].
      - apply H2 in H. destruct H; lia.
      - eapply IHs; [|exact H3 | exact H]. lia. }
    eapply G; [|exact IH | exact H]. lia.
Qed.

Lemma all_succeed : forall ds, Forall succeeds ds -> forall s own env,
  Forall decl_syn ds -> wf_in own env ds -> scope s own env ->
  NoDup (flat_map group_name ds) -> Forall (fresh_group s) (flat_map group_name ds) ->
  exists s', elab_decls s ds = Some s' /\ reads_all s own env ds s'.
Proof.
  induction ds as [|d ds IH]; intros FS s own env SY WF SC ND FR.
  - exists s. split; [reflexivity|]. unfold reads_all. cbn [flat_map flats sizes]. rewrite app_nil_r, Nat.add_0_r.
    split; [exact SC|]. split; [apply same_place_refl|]. split; [reflexivity|]. split; [apply ext_refl|].
    intros. cbn [In]. tauto.
  - inversion FS as [|? ? S1 S2]; subst. inversion SY as [|? ? Y1 Y2]; subst. destruct WF as [W1 W2].
    cbn [flat_map] in ND, FR. apply Forall_app in FR as [R1 R2].
    destruct (S1 s own env Y1 W1 SC R1) as (s1 & E1 & (C1 & P1 & Q1 & X1 & H1)).
    destruct (IH S2 s1 own _ Y2 W2 C1) as (s2 & E2 & (C2 & P2 & Q2 & X2 & H2)).
    + clear - ND. induction (group_name d) as [|x l IH]; [exact ND|]. inversion ND; subst. auto.
    + rewrite Forall_forall in *. intros m M i K. rewrite (same_place_id _ _ P1) in K.
      assert (HH : is_ent s1 i (group_id s) (HGroup m)) by (right; right; exists m; auto).
      apply H1 in HH as [HH | HH].
      * destruct HH as [(x & _ & _ & _ & Z) | [(x & _ & _ & _ & Z) | (m' & Z & Z')]]; try discriminate.
        injection Z' as <-. apply (R2 m M i). exact Z.
      * destruct (flat_parent _ _ _ _ _ _ HH) as [[_ ->] | L].
        -- destruct d as [n fs | n is | n ds']; [destruct HH as [HH|[]]; discriminate.. |].
           rewrite flat_group in HH. destruct HH as [HH | HH].
           ++ injection HH as <-. cbn [group_name app] in ND. inversion ND; subst. auto.
           ++ assert (G : forall ds k a i q h, In (i, (q, h)) (flats a k ds) -> k <= i).
              { clear. induction ds as [|d ds IHs]; intros k a i q h H; [destruct H|]. cbn [flats] in H.
                apply in_app_or in H as [H | H].
                - clear IHs. revert k a H. induction d as [n fs | n is | n ds' IH] using decl_ind'; intros k a H.
                  + destruct H as [H | []]. injection H as <- _. lia.
                  + destruct H as [H | []]. injection H as <- _. lia.
                  + rewrite flat_group in H. destruct H as [H | H]; [injection H as <- _; lia|].
                    assert (GG : forall l b c, Forall (fun d => forall k a, In (i, (q, h)) (flat a k d) -> k <= i) l ->
                                  In (i, (q, h)) (flats b c l) -> c <= i).
                    { clear. induction l as [|d l IHl]; intros b c F H; [destruct H|]. inversion F; subst. cbn [flats] in H.
                      apply in_app_or in H as [H | H]; [eapply H2; eauto|]. apply IHl in H; [lia | assumption]. }
                    apply GG in H; [lia | exact IH].
                - apply IHs in H. lia. }
              apply G in HH. lia.
        -- assert (GL : group_id s <= seq s).
           { unfold group_id. destruct (c_group s) as [g|] eqn:G; [|lia].
             pose proof (I_range _ (S_inv _ _ _ SC) (g_id g)) as RR. rewrite cnt_eq, G in RR. cbn [olist map count_occ] in RR.
             destruct (Nat.eq_dec (g_id g) (g_id g)); [lia | congruence]. }
           lia.
    + exists s2. split; [rewrite elab_decls_cons, E1; exact E2|]. unfold reads_all. cbn [flat_map flats sizes].
      rewrite app_assoc. split; [exact C2|]. split; [eapply same_place_trans; eauto|]. split; [lia|].
      split; [eapply ext_trans; eauto|]. intros i p h. rewrite H2, H1, in_app_iff.
      rewrite (same_place_id _ _ P1), Q1. cbn [plus]. tauto.
Qed.

Lemma open_group_facts : forall s n, c_struct s = None -> c_enum s = None ->
  exists s1, open_group s n = Ok s1 /\ structs s1 = structs s /\ enums s1 = enums s /\ c_struct s1 = None /\ c_enum s1 = None /\
    c_field s1 = c_field s /\ seq s1 = S (seq s) /\
    c_group s1 = Some (mkGroup (S (seq s)) (group_id s) n [] [] []) /\
    path s1 = path s ++ [S (seq s)] /\
    map gkey (all_groups s1) = map gkey (all_groups s) ++ [(S (seq s), group_id s, n)].
Proof.
  intros s n CS CE. unfold open_group. rewrite CS, CE. cbv zeta. eexists. split; [reflexivity|].
  unfold bind_group_id. cbn [set_seq c_group]. unfold all_groups. destruct (c_group s) as [g|] eqn:G;
    cbn [set_path set_c_group set_groups set_seq structs enums groups c_struct c_group c_enum c_field seq path olist];
    repeat split; auto; rewrite ?app_nil_r, ?map_app; cbn [map]; rewrite ?app_nil_r, ?map_app; reflexivity.
Qed.

Lemma remove_group_some : forall id gs, In id (map g_id gs) -> exists g gs', remove_group id gs = Some (g, gs').
Proof.
  induction gs as [|g gs IH]; intro H; [destruct H|]. cbn [remove_group].
  destruct (g_id g =? id) eqn:E; [eauto|]. destruct H as [H | H]; [apply Nat.eqb_neq in E; congruence|].
  destruct (IH H) as (h & gs' & R). rewrite R. eauto.
Qed.

Lemma group_id_le : forall s, inv s -> group_id s <= seq s.
Proof.
  intros s I. unfold group_id. destruct (c_group s) as [g|] eqn:G; [|lia].
  pose proof (I_range _ I (g_id g)) as RR. rewrite cnt_eq, G in RR. cbn [olist map count_occ] in RR.
  destruct (Nat.eq_dec (g_id g) (g_id g)); [lia | congruence].
Qed.

Lemma group_range : forall s i p n, inv s -> has_group s i p n -> 0 < i <= seq s.
Proof.
  intros s i p n I H. apply (I_range _ I). rewrite cnt_eq. unfold has_group in H.
  apply (in_map (fun k => fst (fst k))) in H. cbn [fst] in H. rewrite map_map in H.
  change (In i (map g_id (all_groups s))) in H. unfold all_groups in H. rewrite map_app in H.
  apply (count_occ_In Nat.eq_dec) in H. rewrite count_occ_app in H. lia.
Qed.

Lemma close_group : forall s2 g rest x, c_enum s2 = None -> c_struct s2 = None -> c_group s2 = Some g ->
  path s2 = rest ++ [x] ->
  (rest <> [] -> exists p n, has_group s2 (last rest 0) p n) ->
  exists s', close s2 = Ok s' /\ structs s' = structs s2 /\ enums s' = enums s2 /\ c_struct s' = None /\ c_enum s' = None /\
    c_field s' = c_field s2 /\ seq s' = seq s2 /\ path s' = rest /\
    (forall i p n, has_group s' i p n <-> has_group s2 i p n) /\
    ((rest = [] /\ c_group s' = None) \/ exists h, c_group s' = Some h /\ rest <> [] /\ last rest 0 = g_id h).
Proof.
  intros s2 g rest x CE CS CG PT HP. unfold close. rewrite CE, CS, CG. cbv zeta. rewrite PT, removelast_last.
  destruct rest as [|a r] eqn:ER.
  - eexists. split; [reflexivity|]. cbn. repeat split; auto; intro H; unfold has_group, all_groups in *; cbn in *;
      rewrite CG in *; cbn in *; rewrite ?app_nil_r in *; exact H.
  - rewrite <- ER in *. assert (N : rest <> []) by congruence. destruct (HP N) as (p & n & H).
    assert (IN : In (last rest 0) (map g_id (groups s2 ++ [g]))).
    { unfold has_group, all_groups in H. rewrite CG in H. cbn [olist] in H.
      apply (in_map (fun k => fst (fst k))) in H. rewrite map_map in H. exact H. }
    destruct (remove_group_some _ _ IN) as (h & gs' & R). rewrite R. cbn [ok].
    destruct (remove_group_count _ _ _ _ R) as (R1 & _ & R3).
    eexists. split; [reflexivity|].
    cbn [set_path set_c_group set_groups structs enums groups c_struct c_group c_enum c_field seq path].
    repeat (split; [solve [auto]|]). split.
    + intros i q m. unfold has_group, all_groups. cbn [set_path set_c_group set_groups groups c_group olist].
      rewrite CG. cbn [olist]. rewrite (R3 (i, q, m)), map_app, in_app_iff. cbn [map In]. intuition congruence.
    + right. exists h. auto.
Qed.

Lemma group_reads : forall n ds, Forall succeeds ds -> succeeds (DGroup n ds).
Proof.
  intros n ds FS s own env SY WF SC FR.
  destruct (S_idle _ _ _ SC) as (CS & CE & CF). pose proof (S_inv _ _ _ SC) as I.
  apply wf_decl_group in WF as [ND WF]. inversion FR as [|? ? FN _]; subst.
  destruct (open_group_facts s n CS CE) as (s1 & O1 & O2 & O3 & O4 & O5 & O6 & O7 & O8 & O9 & O10).
  pose proof (open_group_inv s n I) as OI. rewrite O1 in OI. destruct OI as (I1 & G1 & _).
  assert (X1 : ext s s1) by apply G1.
  assert (ID1 : group_id s1 = S (seq s)) by (unfold group_id at 1; rewrite O8; reflexivity).
  assert (HG1 : forall i p m, has_group s1 i p m <-> has_group s i p m \/ (i = S (seq s) /\ p = group_id s /\ m = n)).
  { intros i p m. unfold has_group. rewrite O10, in_app_iff. cbn [In]. split; intros [H | H]; auto.
    - destruct H as [H | []]. injection H as <- <- <-. auto.
    - destruct H as (-> & -> & ->). auto. }
  assert (SC1 : scope s1 (own ++ [n]) env).
  { constructor.
    - exact I1.
    - repeat split; congruence.
    - rewrite ID1. eapply SP_group; [apply HG1; right; auto|]. eapply scope_ext; [exact X1 | apply (S_own _ _ _ SC)].
    - intros i j p m A B. apply HG1 in A as [A | (-> & -> & ->)]; apply HG1 in B as [B | (-> & B1 & B2)]; auto.
      + eapply (S_uniq _ _ _ SC); eauto.
      + subst. elim (FN i A).
      + elim (FN j B).
    - right. eexists. split; [exact O8|]. rewrite O9. split; [destruct (path s); discriminate|].
      rewrite last_last. reflexivity.
    - eapply env_ext; [exact X1 | apply (S_env _ _ _ SC)]. }
  assert (SYs : Forall decl_syn ds).
  { cbn [decl_syn] in SY. clear - SY. induction ds as [|d ds IH]; constructor; [apply SY|]. apply IH, SY. }
  destruct (all_succeed ds FS s1 (own ++ [n]) env SYs WF SC1 ND) as (s2 & E2 & (C2 & P2 & Q2 & X2 & H2)).
  { apply Forall_forall. intros m _ i H. rewrite ID1 in H. apply HG1 in H as [H | (_ & H & _)].
    - destruct (I_parent _ I _ _ _ H) as [_ [Z | (p' & n' & Z)]]; [discriminate|].
      apply group_range in Z; [lia | exact I].
    - pose proof (group_id_le s I). lia. }
  destruct (S_idle _ _ _ C2) as (CS2 & CE2 & CF2). destruct P2 as [P2 K2].
  rewrite O8 in K2. destruct (c_group s2) as [g2|] eqn:CG2; [|discriminate]. cbn [olist map gkey g_id g_parent g_name] in K2.
  injection K2 as K21 K22 K23.
  destruct (close_group s2 g2 (path s) (S (seq s)) CE2 CS2 CG2) as (s' & L1 & L2 & L3 & L4 & L5 & L6 & L7 & L8 & L9 & L10).
  { rewrite P2. exact O9. }
  { intro N. destruct (S_path _ _ _ SC) as [[Z _] | (g & Z1 & Z2 & Z3)]; [congruence|]. rewrite Z3.
    exists (g_parent g), (g_name g). apply X2. apply X1. apply has_of_cur. exact Z1. }
  assert (EL : elab s (DGroup n ds) = Some s').
  { rewrite elab_group. rewrite O1. cbn [ok obind]. rewrite E2. cbn [obind]. rewrite L1. reflexivity. }
  exists s'. split; [exact EL|]. destruct (elab_inv _ _ _ _ _ SY SC EL) as [I' X'].
  assert (X2' : ext s2 s').
  { split; [rewrite L2; apply incl_refl|]. split; [rewrite L3; apply incl_refl|].
    intros [[i p] m] H. apply L9. exact H. }
  assert (PL : same_place s s').
  { split; [exact L8|]. destruct L10 as [[Z1 Z2] | (h & Z1 & Z2 & Z3)]; rewrite ?Z2, ?Z1.
    - destruct (S_path _ _ _ SC) as [[_ Z] | (g & _ & Z & _)]; [rewrite Z; reflexivity | congruence].
    - destruct (S_path _ _ _ SC) as [[Z _] | (g & Y1 & Y2 & Y3)]; [congruence|]. rewrite Y1.
      pose proof (has_of_cur _ _ Z1) as HA.
      assert (HB : has_group s' (g_id g) (g_parent g) (g_name g)) by (apply X', has_of_cur, Y1).
      assert (g_id h = g_id g) by congruence. rewrite H in HA.
      destruct (has_group_fun _ _ _ _ _ _ I' HA HB) as [A B]. cbn [olist map]. unfold gkey. congruence. }
  split; [constructor|].
  - exact I'.
  - split; [exact L4|]. split; [exact L5 | congruence].
  - rewrite (same_place_id _ _ PL). eapply scope_ext; [exact X' | apply (S_own _ _ _ SC)].
  - eapply guniq_same; [exact L9 | apply (S_uniq _ _ _ C2)].
  - eapply path_same_place; [exact PL | apply (S_path _ _ _ SC)].
  - rewrite names_group. eapply env_ext; [exact X2' | apply (S_env _ _ _ C2)].
  - split; [exact PL|]. split; [rewrite size_group; lia|]. split; [exact X'|].
    intros i p h.
    assert (A : is_ent s' i p h <-> is_ent s2 i p h).
    { unfold is_ent. rewrite L2, L3. setoid_rewrite L9. reflexivity. }
    assert (B : is_ent s1 i p h <-> is_ent s i p h \/ (i, (p, h)) = (S (seq s), (group_id s, HGroup n))).
    { unfold is_ent. rewrite O2, O3. split.
      - intros [H | [H | (m & H & ->)]]; auto. apply HG1 in H as [H | (-> & -> & ->)]; [|right; reflexivity].
        left. right. right. exists m. auto.
      - intros [[H | [H | (m & H & ->)]] | H]; auto.
        + right. right. exists m. split; [apply HG1; auto | reflexivity].
        + injection H as -> -> ->. right. right. exists n. split; [apply HG1; auto | reflexivity]. }
    rewrite A, H2, B, flat_group, ID1, O7. cbn [In]. intuition congruence.
Qed.

Theorem decl_succeeds : forall d, succeeds d.
Proof.
  induction d as [n fs | n is | n ds IH] using decl_ind'.
  - intros s own env A B C _. apply struct_reads; assumption.
  - intros s own env A B C _. apply enum_reads; assumption.
  - apply group_reads. exact IH.
Qed.

Lemma scope_new : scope store_new [] [].
Proof.
  constructor.
  - apply inv_new.
  - repeat split.
  - constructor.
  - intros i j p n H. destruct H.
  - left. split; reflexivity.
  - intros q [].
Qed.

(** a whole file *)
Theorem decls_succeed : forall ds, Forall decl_syn ds -> wf_decls ds ->
  exists s, elab_decls store_new ds = Some s /\ inv s /\ c_struct s = None /\ c_enum s = None /\ c_field s = None /\
    c_group s = None /\ seq s = sizes ds /\
    (forall i p h, is_ent s i p h <-> In (i, (p, h)) (flats 0 1 ds)).
Proof.
  intros ds SY [ND WF].
  destruct (all_succeed ds) with (s := store_new) (own := @nil text) (env := @nil (list text)) as (s & E & (C & P & Q & X & H)).
  - apply Forall_forall. intros d _. apply decl_succeeds.
  - exact SY.
  - exact WF.
  - exact scope_new.
  - exact ND.
  - apply Forall_forall. intros m _ i H. destruct H.
  - exists s. split; [exact E|]. split; [apply (S_inv _ _ _ C)|]. destruct (S_idle _ _ _ C) as (A1 & A2 & A3).
    repeat (split; [assumption|]). split.
    { destruct P as [_ P]. cbn in P. destruct (c_group s); [discriminate | reflexivity]. }
    split; [exact Q|]. intros i p h. rewrite H. change (group_id store_new) with 0. change (S (seq store_new)) with 1.
    split; [|auto]. intros [[(x & [] & _) | [(x & [] & _) | (m & [] & _)]] | K]. exact K.
Qed.
