(** Well-scoped declaration trees: the store operations succeed, and the store
    describes the tree. *)
From Coq Require Import String Ascii NArith List Arith Lia Bool.
From Verif Require Import Bytes ProtoModel ProtoProofs ProtoInv ProtoRun ProtoGrammar ProtoElab.
Import ListNotations.
Close Scope string_scope.
Open Scope list_scope.
Open Scope nat_scope.

(** ** Scoping *)

(** qualified names of the entities of a declaration in scope [own] *)
Fixpoint names (own : list text) (d : decl) : list (list text) :=
  match d with
  | DStruct n _ | DEnum n _ => [own ++ [n]]
  | DGroup n ds => (fix go ds := match ds with [] => [] | d :: ds => names (own ++ [n]) d ++ go ds end) ds
  end.

(** The names a type written in scope [own] can use: relative to the own scope,
    or from the root, but not through the group being read. *)
Definition visible (env : list (list text)) (own p : list text) : Prop :=
  In (own ++ p) env \/
  (In p env /\ ~ (own <> [] /\ exists q, q <> [] /\ p = own ++ q)).

Definition type_ok (env : list (list text)) (own p : list text) : Prop :=
  (exists k, p = [k] /\ is_primitive k = true) \/ visible env own p.

Definition group_name (d : decl) : list text :=
  match d with DGroup n _ => [n] | _ => [] end.

Fixpoint wf_decl (own : list text) (env : list (list text)) (d : decl) : Prop :=
  match d with
  | DStruct _ fs => NoDup (map fd_name fs) /\ Forall (fun f => type_ok env own (fd_path f)) fs
  | DEnum _ is =>
    Forall (fun i => match i with ISimple _ => True | ITyped p _ _ => type_ok env own p end) is
  | DGroup n ds =>
    NoDup (flat_map group_name ds) /\
    (fix go env ds := match ds with
                      | [] => True
                      | d :: ds => wf_decl (own ++ [n]) env d /\ go (env ++ names (own ++ [n]) d) ds
                      end) env ds
  end.

Fixpoint wf_in (own : list text) (env : list (list text)) (ds : list decl) : Prop :=
  match ds with
  | [] => True
  | d :: ds => wf_decl own env d /\ wf_in own (env ++ names own d) ds
  end.

(** a whole file *)
Definition wf_decls (ds : list decl) : Prop :=
  NoDup (flat_map group_name ds) /\ wf_in [] [] ds.

Lemma wf_decl_group : forall own env n ds, wf_decl own env (DGroup n ds) <->
  NoDup (flat_map group_name ds) /\ wf_in (own ++ [n]) env ds.
Proof.
  intros own env n ds. cbn [wf_decl].
  assert (H : forall ds env, (fix go env ds := match ds with
                      | [] => True
                      | d :: ds => wf_decl (own ++ [n]) env d /\ go (env ++ names (own ++ [n]) d) ds
                      end) env ds <-> wf_in (own ++ [n]) env ds).
  { induction ds0 as [|d ds0 IH]; intros env0; cbn [wf_in]; [tauto|]. rewrite IH. tauto. }
  rewrite H. tauto.
Qed.

(** ** What the store says *)

Inductive head := HStruct (n : text) (fs : list fdecl) | HEnum (n : text) (is : list idecl) | HGroup (n : text).

Definition fdecl_of (f : pfield) : fdecl := FDecl (f_tpath f) (f_rep f) (f_name f) (f_opt f).
Definition idecl_of (i : pitem) : idecl :=
  match i_tpath i with
  | [] => ISimple (i_name i)
  | p => ITyped p (i_rep i) (i_name i)
  end.

(** the entity with id [i]: its parent and declaration *)
Definition ent (s : store) (i : nat) : option (nat * head) :=
  match find (fun x => s_id x =? i) (structs s) with
  | Some x => Some (s_parent x, HStruct (s_name x) (map fdecl_of (s_fields x)))
  | None =>
    match find (fun e => e_id e =? i) (enums s) with
    | Some e => Some (e_parent e, HEnum (e_name e) (map idecl_of (e_items e)))
    | None =>
      match find (fun g => g_id g =? i) (groups s) with
      | Some g => Some (g_parent g, HGroup (g_name g))
      | None => None
      end
    end
  end.

(** the declarations of scope [parent], in the order of their ids *)
Fixpoint tree (fuel : nat) (s : store) (parent : nat) : list decl :=
  flat_map (fun i =>
    match ent s i with
    | Some (p, h) =>
      if p =? parent then
        [match h with
         | HStruct n fs => DStruct n fs
         | HEnum n is => DEnum n is
         | HGroup n => DGroup n (match fuel with O => [] | S f => tree f s i end)
         end]
      else []
    | None => []
    end) (List.seq 1 (seq s)).
Definition decls_of (s : store) : list decl := tree (seq s) s 0.

Definition is_ent (s : store) (i p : nat) (h : head) : Prop :=
  (exists x, In x (structs s) /\ s_id x = i /\ s_parent x = p /\
     h = HStruct (s_name x) (map fdecl_of (s_fields x))) \/
  (exists e, In e (enums s) /\ e_id e = i /\ e_parent e = p /\
     h = HEnum (e_name e) (map idecl_of (e_items e))) \/
  (exists n, has_group s i p n /\ h = HGroup n).

(** ** Chains of groups *)

Inductive chain (s : store) : nat -> list text -> nat -> Prop :=
| ch_nil : forall a, chain s a [] a
| ch_cons : forall a b c n q, has_group s b a n -> chain s b q c -> chain s a (n :: q) c.

Lemma chain_snoc : forall s a q b, chain s a q b -> forall c n, has_group s c b n -> chain s a (q ++ [n]) c.
Proof.
  intros s a q b H. induction H; intros c' m G; cbn [app].
  - eapply ch_cons; [exact G | constructor].
  - eapply ch_cons; eauto.
Qed.

Lemma scope_chain : forall s c q, scope_path s c q -> chain s 0 q c.
Proof. intros s c q H. induction H; [constructor|]. eapply chain_snoc; eauto. Qed.

Lemma chain_split : forall s q1 q2 a c, chain s a (q1 ++ q2) c ->
  exists b, chain s a q1 b /\ chain s b q2 c.
Proof.
  induction q1 as [|n q1 IH]; intros q2 a c H; cbn [app] in H.
  - exists a. split; [constructor | exact H].
  - inversion H; subst. destruct (IH _ _ _ H5) as (b' & A & B). exists b'. split; [|exact B].
    eapply ch_cons; eauto.
Qed.

Definition guniq (s : store) : Prop :=
  forall i j p n, has_group s i p n -> has_group s j p n -> i = j.

Lemma chain_fun : forall s, guniq s -> forall q a b c, chain s a q b -> chain s a q c -> b = c.
Proof.
  intros s U. induction q as [|n q IH]; intros a b c H K.
  - inversion H; inversion K; subst; auto.
  - inversion H as [|? i ? ? ? G1 C1]; inversion K as [|? j ? ? ? G2 C2]; subst.
    rewrite (U _ _ _ _ G1 G2) in *. eapply IH; eauto.
Qed.

Lemma chain_le : forall s, inv s -> forall a q c, chain s a q c -> a <= c /\ (q <> [] -> a < c).
Proof.
  intros s I a q c H. induction H; [split; [lia | congruence]|].
  destruct (I_parent _ I _ _ _ H) as [L _]. destruct IHchain. split; [lia | intros _; lia].
Qed.

Lemma has_group_fun : forall s i p n p' n', inv s -> has_group s i p n -> has_group s i p' n' -> p = p' /\ n = n'.
Proof.
  intros s i p n p' n' I H K. unfold has_group in *.
  assert (N : NoDup (map g_id (all_groups s))).
  { apply (NoDup_count_occ Nat.eq_dec). intro j. pose proof (I_cnt _ I j) as C0. rewrite cnt_eq in C0.
    unfold all_groups. rewrite map_app, count_occ_app. lia. }
  apply in_map_iff in H as (g & E & G). apply in_map_iff in K as (g' & E' & G').
  injection E as E1 E2 E3. injection E' as E1' E2' E3'.
  assert (g = g').
  { assert (Q : g_id g = g_id g') by congruence. clear - N G G' Q.
    induction (all_groups s) as [|h l IH]; [destruct G|]. cbn [map] in N. inversion N; subst.
    destruct G as [-> | G]; destruct G' as [-> | G']; auto.
    - elim H1. rewrite Q. apply in_map. exact G'.
    - elim H1. rewrite <- Q. apply in_map. exact G. }
  subst. split; congruence.
Qed.

Lemma chain_rev_fun : forall s, inv s -> forall c q, scope_path s c q -> forall q', scope_path s c q' -> q = q'.
Proof.
  intros s I c q H. induction H; intros q' K.
  - inversion K; subst; auto. destruct (I_parent _ I _ _ _ H) as [L _]. lia.
  - inversion K; subst.
    + destruct (I_parent _ I _ _ _ H) as [L _]. lia.
    + destruct (has_group_fun _ _ _ _ _ _ I H H1) as [-> ->]. rewrite (IHscope_path _ H2). reflexivity.
Qed.

Lemma chain_scope : forall s a q b, chain s a q b -> forall r, scope_path s a r -> scope_path s b (r ++ q).
Proof.
  intros s a q b H. induction H; intros r R; [rewrite app_nil_r; exact R|].
  change (r ++ n :: q) with (r ++ [n] ++ q). rewrite app_assoc. apply IHchain. eapply SP_group; eauto.
Qed.

(** ** Lookup *)

Definition has_entity (s : store) (parent : nat) (n : text) : Prop :=
  (exists x, In x (structs s) /\ s_parent x = parent /\ s_name x = n) \/
  (exists e, In e (enums s) /\ e_parent e = parent /\ e_name e = n).

Lemma find_entity : forall s c n, has_entity s c n -> find_by_path s c [n] <> None.
Proof.
  intros s c n H. cbn [find_by_path].
  destruct (find _ (enums s)) as [e|] eqn:F1; [discriminate|].
  destruct (find _ (structs s)) as [x|] eqn:F2; [discriminate|].
  destruct H as [(x & A & B & D) | (x & A & B & D)]; exfalso.
  - apply (find_none _ _ F2) in A. cbv beta in A. rewrite D, B, teqb_refl, Nat.eqb_refl in A. discriminate.
  - apply (find_none _ _ F1) in A. cbv beta in A. rewrite D, B, teqb_refl, Nat.eqb_refl in A. discriminate.
Qed.

Lemma find_by_path_cons : forall s a t p, p <> [] -> find_by_path s a (t :: p) =
  match find (fun g => teqb (g_name g) t && (g_parent g =? a)) (groups s) with
  | Some g => match find_by_path s (g_id g) p with
              | Some (gs, id) => Some (g_id g :: gs, id)
              | None => None
              end
  | None => None
  end.
Proof. intros s a t [|t' p] N; [congruence | reflexivity]. Qed.

Lemma find_chain : forall s, inv s -> guniq s -> forall q a c n,
  chain s a q c -> has_entity s c n ->
  (forall q1 q2 b, q = q1 ++ q2 -> q1 <> [] -> chain s a q1 b -> b <> group_id s) ->
  find_by_path s a (q ++ [n]) <> None.
Proof.
  intros s I U. induction q as [|m q IH]; intros a c n H E AV.
  - inversion H; subst. apply find_entity. exact E.
  - inversion H; subst. change ((m :: q) ++ [n]) with (m :: (q ++ [n])).
    rewrite find_by_path_cons by (destruct q; discriminate).
    assert (NB : b <> group_id s).
    { apply (AV [m] q); [reflexivity | discriminate|]. eapply ch_cons; [eassumption | constructor]. }
    destruct (has_group_cases _ _ _ _ H3) as (g & G1 & G2 & G3 & [G | G]).
    2:{ elim NB. unfold group_id. rewrite G. congruence. }
    destruct (find (fun g => teqb (g_name g) m && (g_parent g =? a)) (groups s)) as [g'|] eqn:F.
    2:{ apply (find_none _ _ F) in G. cbv beta in G. rewrite G3, G2, teqb_refl, Nat.eqb_refl in G. discriminate. }
    apply find_some in F as [F1 F2]. apply andb_true_iff in F2 as [F2 F3].
    apply teqb_eq in F2. apply Nat.eqb_eq in F3.
    assert (GB : g_id g' = b).
    { pose proof (has_of_in _ _ F1) as HG. rewrite F2, F3 in HG. eapply U; eauto. }
    rewrite GB.
    assert (R : find_by_path s b (q ++ [n]) <> None).
    { eapply IH; eauto. intros q1 q2 b' -> N1 C1. apply (AV (m :: q1) q2); [reflexivity | discriminate|].
      eapply ch_cons; eauto. }
    destruct (find_by_path s b (q ++ [n])) as [[gs id]|]; [discriminate | congruence].
Qed.

Definition env_ok (s : store) (env : list (list text)) : Prop :=
  forall q, In q env -> exists gq n pid, q = gq ++ [n] /\ scope_path s pid gq /\ has_entity s pid n.

Lemma app_eq_prefix : forall (A : Type) (own p gq : list A) n, own ++ p = gq ++ [n] -> p <> [] ->
  exists p1, p = p1 ++ [n] /\ gq = own ++ p1.
Proof.
  intros A own p gq n E N. destruct (exists_last N) as (p1 & n' & ->). rewrite app_assoc in E.
  apply app_inj_tail in E as [<- <-]. eauto.
Qed.

Lemma visible_resolves : forall s own env p, inv s -> guniq s -> env_ok s env ->
  scope_path s (group_id s) own -> p <> [] -> visible env own p -> resolve s (group_id s) p <> None.
Proof.
  intros s own env p I U EO SP NP [V | [V NV]]; unfold resolve.
  - destruct (EO _ V) as (gq & n & pid & E1 & E2 & E3).
    destruct (app_eq_prefix _ _ _ _ _ E1 NP) as (p1 & -> & ->).
    apply scope_chain in E2. apply chain_split in E2 as (b & C1 & C2).
    rewrite <- (chain_fun s U _ _ _ _ (scope_chain _ _ _ SP) C1) in C2.
    assert (R : find_by_path s (group_id s) (p1 ++ [n]) <> None).
    { eapply find_chain; eauto. intros q1 q2 b' _ N1 K. destruct (chain_le s I _ _ _ K) as [_ L]. specialize (L N1). lia. }
    destruct (find_by_path s (group_id s) (p1 ++ [n])); [discriminate | congruence].
  - destruct (EO _ V) as (gq & n & pid & -> & E2 & E3).
    destruct (find_by_path s (group_id s) (gq ++ [n])); [discriminate|].
    eapply find_chain; [exact I | exact U | apply scope_chain; exact E2 | exact E3|].
    intros q1 q2 b -> N1 K EB. subst b.
    assert (Q : own = q1).
    { eapply chain_rev_fun; [exact I | exact SP|]. apply (chain_scope _ _ _ _ K []). constructor. }
    apply NV. subst q1. split; [exact N1|]. exists (q2 ++ [n]). split; [destruct q2; discriminate|].
    rewrite <- app_assoc. reflexivity.
Qed.

(** ** Fields and items succeed *)

Definition frame (s s' : store) : Prop :=
  structs s' = structs s /\ enums s' = enums s /\ groups s' = groups s /\
  c_group s' = c_group s /\ path s' = path s.

Lemma frame_refl : forall s, frame s s.
Proof. intro s. repeat split. Qed.
Lemma frame_trans : forall a b c, frame a b -> frame b c -> frame a c.
Proof. intros a b c (A1&A2&A3&A4&A5) (B1&B2&B3&B4&B5). unfold frame. repeat split; congruence. Qed.

Lemma find_by_path_frame : forall s s', frame s s' -> forall p a, find_by_path s' a p = find_by_path s a p.
Proof.
  intros s s' (A & B & D & _). induction p as [|t p IH]; intro a; [reflexivity|].
  cbn [find_by_path]. rewrite A, B, D. destruct p; [reflexivity|].
  destruct (find _ (groups s)); [|reflexivity]. rewrite IH. reflexivity.
Qed.

Lemma frame_group_id : forall s s', frame s s' -> group_id s' = group_id s.
Proof. intros s s' (_ & _ & _ & A & _). unfold group_id. rewrite A. reflexivity. Qed.

Lemma resolve_frame : forall s s' p, frame s s' -> resolve s' (group_id s') p = resolve s (group_id s) p.
Proof.
  intros s s' p F. unfold resolve. rewrite (frame_group_id s s' F), !(find_by_path_frame s s' F). reflexivity.
Qed.

(** the type of a field can be accepted *)
Definition type_res (s : store) (p : list text) : Prop :=
  p <> [] /\ ((exists k, p = [k] /\ is_primitive k = true) \/ resolve s (group_id s) p <> None).

Lemma type_res_frame : forall s s' p, frame s s' -> type_res s p -> type_res s' p.
Proof. intros s s' p F [N H]. split; [exact N|]. rewrite (resolve_frame s s' p F). exact H. Qed.

Lemma elab_ftype_open : forall p s f, c_struct s <> None -> c_field s = Some f ->
  exists s', elab_ftype s p = Some s' /\ frame s s' /\ c_enum s' = c_enum s /\ c_struct s' = c_struct s /\
    seq s' = seq s /\
    c_field s' = Some (mkField (f_id f) (f_parent f) (f_name f) (f_kind f) (f_ref f) (f_ref_path f)
                        (f_rep f) (f_opt f) (f_tpath f ++ p)).
Proof.
  induction p as [|t p IH]; intros s f CS CF.
  - exists s. cbn [elab_ftype]. rewrite app_nil_r.
    repeat split; auto. rewrite CF. destruct f; reflexivity.
  - cbn [elab_ftype]. unfold set_field_type. destruct (c_struct s) as [x|] eqn:EX; [|congruence].
    rewrite CF. cbn [ok obind].
    destruct (IH (set_c_field s (Some (add_ftype f t))) (add_ftype f t)) as (s' & A & B & D & E & G & H).
    + cbn. congruence.
    + reflexivity.
    + exists s'. split; [exact A|]. split; [exact B|]. split; [exact D|]. split; [cbn in E; congruence|].
      split; [exact G|]. rewrite H. unfold add_ftype.
      cbn [f_id f_parent f_name f_kind f_ref f_ref_path f_rep f_opt f_tpath]. rewrite <- app_assoc. reflexivity.
Qed.

Lemma elab_ftype_new : forall p s, p <> [] -> c_struct s <> None -> c_field s = None ->
  exists s' f, elab_ftype s p = Some s' /\ frame s s' /\ c_enum s' = c_enum s /\ c_struct s' = c_struct s /\
    seq s' = S (seq s) /\ c_field s' = Some f /\
    f_rep f = false /\ f_opt f = false /\ f_tpath f = p.
Proof.
  intros [|t p] s N CS CF; [congruence|]. cbn [elab_ftype]. unfold set_field_type.
  destruct (c_struct s) as [x|] eqn:EX; [|congruence]. rewrite CF. cbn [ok obind]. cbv zeta.
  match goal with |- context [elab_ftype ?s1 p] => set (s1' := s1) end.
  match goal with [ s1' := set_c_field _ (Some ?f) |- _ ] =>
    destruct (elab_ftype_open p s1' f) as (s' & A & B & D & E & G & H) end.
  - cbn. congruence.
  - reflexivity.
  - exists s'. eexists. split; [exact A|]. split; [exact B|]. split; [exact D|]. split; [cbn in E; congruence|].
    split; [exact G|]. split; [exact H|]. repeat split.
Qed.

Lemma accept_ftype_some : forall s f, type_res s (f_tpath f) -> exists f', accept_ftype s (group_id s) f = Ok f' /\
  f_tpath f' = f_tpath f /\ f_rep f' = f_rep f /\ f_opt f' = f_opt f /\ f_name f' = f_name f.
Proof.
  intros s f [N H]. unfold accept_ftype. destruct (f_tpath f) as [|t p] eqn:E; [congruence|].
  destruct ((match p with [] => true | _ => false end) && is_primitive t) eqn:P.
  - eexists. split; [reflexivity|]. repeat split; auto.
  - destruct (resolve s (group_id s) (t :: p)) as [[gs id]|].
    + eexists. split; [reflexivity|]. repeat split; auto.
    + exfalso. destruct H as [(k & K1 & K2) | H]; [|congruence]. injection K1 as -> ->. rewrite K2 in P. discriminate.
Qed.

Lemma field_elab : forall s f x, c_struct s = Some x -> c_enum s = None -> c_field s = None ->
  type_res s (fd_path f) -> ~ In (fd_name f) (map f_name (s_fields x)) ->
  exists s' f', elab_field s f = Some s' /\ frame s s' /\ c_enum s' = None /\ c_field s' = None /\
    seq s' = S (seq s) /\ fdecl_of f' = f /\
    c_struct s' = Some (mkStruct (s_id x) (s_parent x) (s_name x) (s_fields x ++ [f']) (s_path x)).
Proof.
  intros s [p rep n o] x CS CE CF TR NI. cbn [fd_path fd_name] in *. unfold elab_field.
  cbn [fd_path fd_rep fd_name fd_opt].
  destruct (elab_ftype_new p s (proj1 TR)) as (s1 & f1 & A1 & A2 & A3 & A4 & A5 & A6 & A7 & A8 & A9); [congruence | exact CF|].
  rewrite A1. cbn [obind].
  assert (S2 : exists s2 f2, (if rep then ok (set_repeated s1) else Some s1) = Some s2 /\ frame s s2 /\
     c_enum s2 = None /\ c_struct s2 = Some x /\ seq s2 = S (seq s) /\ c_field s2 = Some f2 /\
     f_rep f2 = rep /\ f_opt f2 = false /\ f_tpath f2 = p).
  { destruct rep.
    - unfold set_repeated. rewrite A3, CE, A6. cbn [ok].
      eexists _, _. split; [reflexivity|]. split; [exact A2|]. split; [cbn; congruence|]. split; [cbn; congruence|].
      split; [exact A5|]. split; [reflexivity|]. repeat split; auto.
    - exists s1, f1. split; [reflexivity|]. split; [exact A2|]. split; [congruence|]. split; [congruence|]. auto 10. }
  destruct S2 as (s2 & f2 & B1 & B2 & B3 & B4 & B5 & B6 & B7 & B8 & B9). rewrite B1. cbn [obind].
  unfold set_field_name. rewrite B4, B6. cbv zeta.
  match goal with |- context [accept_ftype s2 _ ?f] => destruct (accept_ftype_some s2 f) as (f3 & C1 & C2 & C3 & C4 & C5) end.
  { cbn [f_tpath]. rewrite B9. eapply type_res_frame; eauto. }
  rewrite C1. cbn [bind ok obind]. cbn [f_tpath f_rep f_opt f_name] in C2, C3, C4, C5.
  assert (S4 : exists s4 f4, (if o then ok (set_optional (set_c_field s2 (Some f3))) else Some (set_c_field s2 (Some f3))) = Some s4 /\
     frame s s4 /\ c_enum s4 = None /\ c_struct s4 = Some x /\ seq s4 = S (seq s) /\ c_field s4 = Some f4 /\
     f_rep f4 = rep /\ f_opt f4 = o /\ f_tpath f4 = p /\ f_name f4 = n).
  { destruct o.
    - unfold set_optional. cbn [set_c_field c_field]. cbn [ok].
      eexists _, _. split; [reflexivity|]. split; [exact B2|]. split; [exact B3|]. split; [exact B4|].
      split; [exact B5|]. split; [reflexivity|]. cbn [f_rep f_opt f_tpath f_name]. repeat split; congruence.
    - eexists _, _. split; [reflexivity|]. split; [exact B2|]. split; [exact B3|]. split; [exact B4|].
      split; [exact B5|]. split; [reflexivity|]. repeat split; congruence. }
  destruct S4 as (s4 & f4 & D1 & D2 & D3 & D4 & D5 & D6 & D7 & D8 & D9 & D10). rewrite D1. cbn [obind].
  unfold close_field. rewrite D4, D6.
  destruct (existsb (fun g => teqb (f_name g) (f_name f4)) (s_fields x)) eqn:EX.
  { exfalso. apply NI. apply existsb_exists in EX as (g & G1 & G2). apply teqb_eq in G2.
    rewrite <- D10, <- G2. apply in_map. exact G1. }
  cbn [ok]. eexists _, _. split; [reflexivity|]. split; [exact D2|]. split; [exact D3|]. split; [reflexivity|].
  split; [exact D5|]. split; [|reflexivity].
  unfold fdecl_of. cbn [f_tpath f_rep f_name f_opt]. congruence.
Qed.

Lemma fields_elab : forall fs s x, c_struct s = Some x -> c_enum s = None -> c_field s = None ->
  Forall (fun f => type_res s (fd_path f)) fs -> NoDup (map f_name (s_fields x) ++ map fd_name fs) ->
  exists s' l, elab_list elab_field s fs = Some s' /\ frame s s' /\ c_enum s' = None /\ c_field s' = None /\
    seq s' = seq s + length fs /\ map fdecl_of l = fs /\
    c_struct s' = Some (mkStruct (s_id x) (s_parent x) (s_name x) (s_fields x ++ l) (s_path x)).
Proof.
  induction fs as [|f fs IH]; intros s x CS CE CF TR ND.
  - exists s, []. rewrite app_nil_r. split; [reflexivity|]. split; [apply frame_refl|].
    cbn [length]. rewrite Nat.add_0_r. repeat split; auto. rewrite CS. destruct x; reflexivity.
  - inversion TR; subst. cbn [map] in ND.
    assert (NI : ~ In (fd_name f) (map f_name (s_fields x))).
    { apply NoDup_remove_2 in ND. intro K. apply ND. apply in_or_app. auto. }
    destruct (field_elab s f x CS CE CF H1 NI) as (s1 & f' & A1 & A2 & A3 & A4 & A5 & A6 & A7).
    destruct (IH s1 _ A7 A3 A4) as (s2 & l & B1 & B2 & B3 & B4 & B5 & B6 & B7).
    + eapply Forall_impl; [|exact H2]. intros g. apply type_res_frame. exact A2.
    + cbn [s_fields]. rewrite map_app, <- app_assoc. cbn [map app].
      replace (f_name f') with (fd_name f) by (rewrite <- A6; reflexivity). exact ND.
    + exists s2, (f' :: l). split.
      { change (elab_list elab_field s (f :: fs)) with (obind (elab_field s f) (fun s => elab_list elab_field s fs)).
        rewrite A1. exact B1. }
      split; [eapply frame_trans; eauto|]. split; [exact B3|]. split; [exact B4|].
      split; [cbn [length]; lia|]. split; [cbn [map]; congruence|].
      rewrite B7. cbn [s_id s_parent s_name s_fields s_path]. rewrite <- app_assoc. reflexivity.
Qed.

