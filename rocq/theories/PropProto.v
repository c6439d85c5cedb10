(** Properties C16-C20, C22, C45: protocol files (parser and store). *)
From Coq Require Import String Ascii List NArith Arith Lia Bool.
From Verif Require Import Bytes Utf8 WireModel WireSpec WireProofs WireTheorems FrameModel FrameProofs
  PropWire PropFrame ProtoModel ProtoProofs ProtoInv ProtoRun ProtoTypes ProtoService.
Import ListNotations.
Close Scope string_scope.
Open Scope list_scope.
Open Scope nat_scope.

Definition accepts (t : text) (s : store) : Prop := parse t = PAccepted s.

Lemma accepts_inv : forall t s, accepts t s -> inv s.
Proof.
  intros t s H. destruct inv_new as [I L].
  destruct (run_accepted _ _ _ _ _ _ I L H) as (_ & A & _). exact A.
Qed.

(** a protocol used by the examples *)
Definition demo : text := txt "
group G {
  struct B { u8 a; str b?; }
  group H { struct C { i32[] n; } }
  struct D { H.C c; B[] bs; }
}
enum E { One; Two; G.B Three; u16[] Four; }
struct A { E e?; G.H.C c; f64 x; }
".
Definition demo_store : store := match parse demo with PAccepted s => s | _ => store_new end.
Example demo_accepted : accepts demo demo_store /\ length (structs demo_store) = 4.
Proof. split; vm_compute; reflexivity. Qed.

(** ** C16 *)

(** [parse] runs the parser loop for [4 * (length t + 1)] tokens.  This always
    suffices, and more would not change anything: the real loop ends. *)
Theorem C16_parse_terminates : forall t k,
  parse t <> PRunning /\
  run (fuel_for t + k) t at_start store_new 0 = parse t.
Proof.
  intros t k. destruct inv_new as [I L].
  assert (N : parse t <> PRunning).
  { apply run_terminates; auto. unfold fuel_for. pose proof (rank_le at_start). lia. }
  split; [exact N | apply run_more_fuel; exact N].
Qed.
Print Assumptions C16_parse_terminates.

(** all three outcomes occur *)
Example C16_outcomes : parse (txt "struct A { u8 a; }") <> PErrors /\ parse (txt "struct A") = PErrors /\
  parse (txt "struct A { B b; }") = PStopped.
Proof. repeat split; vm_compute; congruence. Qed.

(** ** C17 *)

Theorem C17_ids_unique : forall t s, accepts t s ->
  NoDup (all_ids s) /\ forall i, In i (all_ids s) -> 0 < i <= seq s.
Proof.
  intros t s H. apply accepts_inv in H. split.
  - apply (NoDup_count_occ Nat.eq_dec). apply (I_cnt _ H).
  - intros i A. apply (I_range _ H). apply (count_occ_In Nat.eq_dec) in A. exact A.
Qed.
Print Assumptions C17_ids_unique.

(** also after the workflow has added its service structs *)
Theorem C17_ids_unique_with_services : forall t s l, accepts t s ->
  NoDup (all_ids (add_services s l)) /\
  forall i, In i (all_ids (add_services s l)) -> 0 < i <= seq (add_services s l).
Proof.
  intros t s l H. apply accepts_inv, inv_uniq in H. apply (services_uniq l) in H as [A B]. split.
  - apply (NoDup_count_occ Nat.eq_dec). exact A.
  - intros i D. apply B. apply (count_occ_In Nat.eq_dec) in D. exact D.
Qed.
Print Assumptions C17_ids_unique_with_services.

Example C17_demo : length (all_ids demo_store) = 15.
Proof. vm_compute. reflexivity. Qed.

(** ** C18 *)

(** [tpath] written in scope [own] of the entity [i] is understood as [prim]
    or as a reference to an earlier entity *)
Definition understood (s : store) (own i : nat) (tpath : list text) (prim : option text)
           (ref : option nat) : Prop :=
  (exists k, tpath = [k] /\ is_primitive k = true /\ prim = Some k /\ ref = None) \/
  (exists id, ref = Some id /\ id < i /\
     In id (map s_id (structs s) ++ map e_id (enums s)) /\
     (names_from s own tpath id \/ names_from s 0 tpath id)).

Theorem C18_references_resolved : forall t s, accepts t s ->
  (forall x f, In x (structs s) -> In f (s_fields x) ->
     understood s (s_parent x) (s_id x) (f_tpath f) (Some (f_kind f)) (f_ref f)) /\
  (forall e i, In e (enums s) -> In i (e_items e) ->
     (i_tpath i = [] /\ i_types i = Some (txt "str") /\ i_ref i = None /\ i_rep i = false) \/
     understood s (e_parent e) (e_id e) (i_tpath i) (i_types i) (i_ref i)).
Proof.
  intros t s H. apply accepts_inv in H. destruct (good_structs s H) as [GS GE].
  rewrite Forall_forall in GS, GE. split.
  - intros x f X F. destruct (GS x X) as (_ & A & _). rewrite Forall_forall in A.
    destruct (A f F) as (_ & _ & R & L). destruct R as [R | (id & R1 & R2)]; [left; exact R|].
    right. exists id. destruct (L id R1) as [L1 _]. split; [exact R1|]. split; [exact L1|].
    split; [|exact R2]. destruct R2 as [R2 | R2]; eapply names_from_entity; eauto.
  - intros e i X F. destruct (GE e X) as (A & _). rewrite Forall_forall in A.
    destruct (A i F) as [R | (R & L)]; [left; exact R|]. right.
    destruct R as [R | (id & R1 & R2)]; [left; exact R|].
    right. exists id. destruct (L id R1) as [L1 _]. split; [exact R1|]. split; [exact L1|].
    split; [|exact R2]. destruct R2 as [R2 | R2]; eapply names_from_entity; eauto.
Qed.
Print Assumptions C18_references_resolved.

(** hence types are finite: unfolding references from any entity ends, with a
    well-formed codec type *)
Theorem C18_types_finite : forall t s id, accepts t s -> renderable s ->
  In id (map s_id (structs s) ++ map e_id (enums s)) ->
  exists b, wf_base b /\ forall fuel, id < fuel -> type_of fuel s id = Some b.
Proof.
  intros t s id H R E. apply accepts_inv in H.
  destruct (types_exist s H R (S id) id (S id) (Nat.lt_succ_diag_r id) (le_n (S id)) E)
    as (b & B1 & B2 & _).
  exists b. split; [exact B2|]. intros fuel L. eapply type_of_mono; [|exact B1]. lia.
Qed.
Print Assumptions C18_types_finite.

Example C18_demo :
  option_map (fun x => map f_ref (s_fields x)) (nth_error (structs demo_store) 2) = Some [Some 6; Some 2] /\
  message_table demo_store <> None.
Proof. split; vm_compute; congruence. Qed.

(** ** C19 *)

(** two fields of one struct never share a name *)
Theorem C19_duplicate_fields_partial : forall t s x, accepts t s -> In x (structs s) ->
  NoDup (map f_name (s_fields x)).
Proof.
  intros t s x H X. apply accepts_inv in H. destruct (good_structs s H) as [GS _].
  rewrite Forall_forall in GS. apply (GS x X).
Qed.
Print Assumptions C19_duplicate_fields_partial.

Example C19_fields_rejected : parse (txt "struct A { u8 a; u16 a; }") = PStopped.
Proof. vm_compute. reflexivity. Qed.

(** two entities of one scope may share a name *)
Theorem C19_duplicate_entities_refuted : exists t s x y, accepts t s /\
  In x (structs s) /\ In y (structs s) /\ s_id x <> s_id y /\
  s_parent x = s_parent y /\ s_name x = s_name y.
Proof.
  set (t := txt "struct A { u8 a; } struct A { str b; }").
  destruct (parse t) as [s| | |] eqn:E; try (vm_compute in E; discriminate E).
  exists t, s. vm_compute in E. injection E as <-.
  do 2 eexists. split; [reflexivity|]. split; [left; reflexivity|]. split; [right; left; reflexivity|].
  split; [discriminate | split; reflexivity].
Qed.
Print Assumptions C19_duplicate_entities_refuted.

(** two variants of one enum may share a name *)
Theorem C19_duplicate_variants_refuted : exists t s e, accepts t s /\
  In e (enums s) /\ ~ NoDup (map i_name (e_items e)).
Proof.
  set (t := txt "enum E { A; A; }").
  destruct (parse t) as [s| | |] eqn:E; try (vm_compute in E; discriminate E).
  exists t, s. vm_compute in E. injection E as <-.
  eexists. split; [reflexivity|]. split; [left; reflexivity|].
  cbn [e_items map i_name]. intro N. inversion N; subst. apply H1. left. reflexivity.
Qed.
Print Assumptions C19_duplicate_variants_refuted.

(** ** C20 *)

Definition something_open (s : store) : Prop :=
  c_struct s <> None \/ c_enum s <> None \/ c_group s <> None \/ c_field s <> None.

Theorem C20_truncated_rejected_refuted : exists t s, accepts t s /\ something_open s /\ structs s = [].
Proof.
  set (t := txt "struct A { u8 a; ").
  destruct (parse t) as [s| | |] eqn:E; try (vm_compute in E; discriminate E).
  exists t, s. vm_compute in E. injection E as <-.
  split; [reflexivity|]. split; [left; discriminate | reflexivity].
Qed.
Print Assumptions C20_truncated_rejected_refuted.

(** The defect in general: cutting an accepted protocol anywhere except right
    after a letter, digit or '_' gives an accepted protocol again; whatever was
    open at the cut is missing. *)
Theorem C20_every_cut_accepted_refuted : forall a b s, accepts (a ++ b) s ->
  (forall front c, a = front ++ [c] -> word_char c = false) ->
  exists s1, accepts a s1 /\
    (exists l, structs s = structs s1 ++ l) /\ (exists l, enums s = enums s1 ++ l).
Proof.
  intros a b s H W. destruct inv_new as [I L].
  destruct (run_cut _ _ _ _ _ _ I L H W) as (s1 & R & (_ & G1 & G2 & _)).
  exists s1. split; [|auto]. unfold accepts.
  destruct (C16_parse_terminates a (4 * length b)) as [_ F]. rewrite <- F.
  replace (fuel_for a + 4 * length b) with (fuel_for (a ++ b)); [exact R|].
  unfold fuel_for. rewrite app_length. lia.
Qed.
Print Assumptions C20_every_cut_accepted_refuted.

(** What holds: a text ending inside or right after a word is rejected. *)
Theorem C20_word_at_end_rejected_partial : forall a c s, word_char c = true -> ~ accepts (a ++ [c]) s.
Proof. intros a c s W. destruct inv_new as [I L]. apply run_ends_in_word; auto. Qed.
Print Assumptions C20_word_at_end_rejected_partial.

Example C20_demo : (exists s1, accepts (firstn 41 demo) s1 /\ something_open s1 /\ length (structs s1) = 1) /\
  parse (firstn 16 demo) = PStopped /\ parse (firstn 28 demo) = PErrors.
Proof.
  split; [|split; vm_compute; reflexivity].
  eexists. split; [vm_compute; reflexivity|]. split; [|reflexivity]. right. right. left. discriminate.
Qed.

(** ** C22 *)

Theorem C22_append_keeps_declarations : forall t more s s',
  accepts t s -> accepts (t ++ more) s' ->
  (exists l, structs s' = structs s ++ l) /\ (exists l, enums s' = enums s ++ l).
Proof.
  intros t more s s' H H'. destruct inv_new as [I L].
  destruct (run_continue _ _ _ _ _ I L H) as (k & rest & xs1 & _ & L1 & K).
  pose proof (accepts_inv _ _ H) as I1.
  specialize (K (fuel_for (t ++ more)) more).
  unfold accepts in H'.
  destruct (C16_parse_terminates (t ++ more) k) as [_ F].
  rewrite Nat.add_comm, K, H' in F.
  destruct (run_accepted _ _ _ _ _ _ I1 L1 F) as (_ & _ & (_ & G1 & G2 & _) & _). auto.
Qed.
Print Assumptions C22_append_keeps_declarations.

(** hence codec types are unchanged as well *)
Theorem C22_append_keeps_types : forall t more s s' id b,
  accepts t s -> accepts (t ++ more) s' ->
  In id (map s_id (structs s) ++ map e_id (enums s)) ->
  type_of (S id) s id = Some b -> type_of (S id) s' id = Some b.
Proof.
  intros t more s s' id b H H' E T.
  destruct (C22_append_keeps_declarations _ _ _ _ H H') as ((l1 & G1) & (l2 & G2)).
  apply accepts_inv in H. apply accepts_inv in H'.
  eapply type_of_prefix with (s := s) (l1 := l1) (l2 := l2); eauto.
Qed.
Print Assumptions C22_append_keeps_types.

(** The service messages are not part of the protocol file; their ids follow
    the last declaration, so they do move. *)
Theorem C22_service_ids_refuted : exists t more s s' l x x',
  accepts t s /\ accepts (t ++ more) s' /\
  In x (structs (add_services s l)) /\ In x' (structs (add_services s' l)) /\
  s_name x = s_name x' /\ s_path x = s_path x' /\ s_path x = [service_group] /\ s_id x <> s_id x'.
Proof.
  set (t := txt "struct A { u8 a; }"). set (more := txt " struct B { u8 b; }").
  destruct (parse t) as [s| | |] eqn:E; try (vm_compute in E; discriminate E).
  destruct (parse (t ++ more)) as [s'| | |] eqn:E'; try (vm_compute in E'; discriminate E').
  exists t, more, s, s', [(txt "HashRequest", [(txt "protocol", txt "str", false)])].
  vm_compute in E, E'. injection E as <-. injection E' as <-.
  do 2 eexists. split; [reflexivity|]. split; [reflexivity|].
  split; [vm_compute; right; left; reflexivity|].
  split; [vm_compute; right; right; left; reflexivity|]. vm_compute. repeat split; congruence.
Qed.
Print Assumptions C22_service_ids_refuted.

Example C22_demo : exists s', accepts (demo ++ txt "struct Z { A a; }") s' /\ length (structs s') = 5.
Proof. eexists. split; vm_compute; reflexivity. Qed.

(** ** C45: from the protocol text to delivered values *)

(** Every protocol the parser accepts and the renderer supports has a message
    table with one well-formed type per declared entity, and any sequence of
    messages of it is delivered unchanged through any segmentation. *)
Theorem C45_protocol_end_to_end_partial : forall t s, accepts t s -> renderable s ->
  exists table, message_table s = Some table /\
    map fst table = map N.of_nat (map e_id (enums s) ++ map s_id (structs s)) /\
    Forall (fun ib => wf_base (snd ib)) table /\
    forall sig ms bodies cs, (sig < 2 ^ 16)%N -> Forall2 (msg_ok table) ms bodies ->
      concat cs = concat (map (fun mb => pack (m_id (fst mb)) sig (m_seq (fst mb)) (m_ts (fst mb)) (snd mb))
                              (combine ms bodies)) ->
      exists os b, feed (get_msg table) sig rbuf_new cs = (os, b) /\ Forall (eq COk) os /\
        map snd (rb_queue b) = map (fun m => (m_id m, m_val m)) ms.
Proof.
  intros t s H R. apply accepts_inv in H.
  destruct (table_exists s H R) as (table & T1 & T2 & T3 & T4 & _).
  exists table. split; [exact T1|]. split; [exact T2|]. split; [exact T4|].
  intros sig ms bodies cs Hs Hm E.
  destruct (C09_end_to_end table sig ms bodies cs T3 Hs Hm E) as (os & F & O).
  do 2 eexists. split; [exact F|]. split; [exact O|]. cbn [rb_queue]. rewrite map_map. cbn [snd].
  clear - Hm. induction Hm; [reflexivity|]. cbn [combine map fst]. rewrite IHHm. reflexivity.
Qed.
Print Assumptions C45_protocol_end_to_end_partial.

Lemma forallb_In : forall (A : Type) (p : A -> bool) l x, forallb p l = true -> In x l -> p x = true.
Proof. intros A p l x H. rewrite forallb_forall in H. apply H. Qed.

Example C45_demo : renderable demo_store /\ message_table demo_store <> None.
Proof.
  split; [|vm_compute; discriminate].
  unfold renderable. split; [|split; [|split; [|split]]].
  - intros x f X F R.
    assert (K : forallb (fun x => forallb (fun f => match f_ref f, prim_of (f_kind f) with
        None, None => false | _, _ => true end) (s_fields x)) (structs demo_store) = true)
      by (vm_compute; reflexivity).
    pose proof (forallb_In _ _ _ _ (forallb_In _ _ _ _ K X) F) as B. cbv beta in B. rewrite R in B.
    intro E. rewrite E in B. discriminate.
  - intros e i k X F R.
    assert (K : forallb (fun e => forallb (fun i => match i_types i with
        Some k => match prim_of k with None => false | _ => true end | None => true end) (e_items e))
        (enums demo_store) = true) by (vm_compute; reflexivity).
    pose proof (forallb_In _ _ _ _ (forallb_In _ _ _ _ K X) F) as B. cbv beta in B. rewrite R in B.
    intro E. rewrite E in B. discriminate.
  - intros x f e X F _ _ U V. assert (B : f_opt f && f_rep f = true) by (rewrite U, V; reflexivity).
    assert (K : forallb (fun x => forallb (fun f => negb (f_opt f && f_rep f)) (s_fields x)) (structs demo_store) = true)
      by (vm_compute; reflexivity).
    pose proof (forallb_In _ _ _ _ (forallb_In _ _ _ _ K X) F) as D. cbv beta in D.
    rewrite B in D. discriminate.
  - intros e X.
    assert (K : forallb (fun e => (N.of_nat (length (e_items e)) <=? 65536)%N) (enums demo_store) = true)
      by (vm_compute; reflexivity).
    pose proof (forallb_In _ _ _ _ K X) as D. apply N.leb_le in D. exact D.
  - vm_compute. reflexivity.
Qed.

(** accepted by the parser, but the renderer has no type for it *)
Theorem C45_unsupported_primitive_refuted : exists t s x f, accepts t s /\
  In x (structs s) /\ In f (s_fields x) /\ is_primitive (f_kind f) = true /\ message_table s = None.
Proof.
  set (t := txt "struct A { char c; }").
  destruct (parse t) as [s| | |] eqn:E; try (vm_compute in E; discriminate E).
  exists t, s. vm_compute in E. injection E as <-.
  do 2 eexists. split; [reflexivity|]. split; [left; reflexivity|]. split; [left; reflexivity|].
  split; vm_compute; reflexivity.
Qed.
Print Assumptions C45_unsupported_primitive_refuted.

(** A struct named like a primitive: the reference is resolved to the struct,
    but the generated codec treats the field as the primitive. *)
Theorem C45_shadowed_primitive_refuted : exists t s x y f,
  accepts t s /\ In x (structs s) /\ In y (structs s) /\ s_fields x = [f] /\
  f_ref f = Some (s_id y) /\
  type_of (S (s_id x)) s (s_id x) = Some (BStruct (FCons (N.of_nat (f_id f)) false false (BPrim PStr) FNil)).
Proof.
  set (t := txt "group G { struct str { u8 a; } } struct A { G.str x; }").
  destruct (parse t) as [s| | |] eqn:E; try (vm_compute in E; discriminate E).
  exists t, s. vm_compute in E. injection E as <-.
  do 3 eexists. split; [reflexivity|]. split; [right; left; reflexivity|]. split; [left; reflexivity|].
  split; [reflexivity|]. split; vm_compute; reflexivity.
Qed.
Print Assumptions C45_shadowed_primitive_refuted.
