(** The invariant of the protocol parser's store. *)
From Coq Require Import String Ascii NArith List Arith Lia Bool.
From Verif Require Import Bytes ProtoModel ProtoProofs.
Import ListNotations.
Close Scope string_scope.
Open Scope list_scope.
Open Scope nat_scope.

(** ** Vocabulary *)

Definition olist {A} (o : option A) : list A := match o with Some x => [x] | None => [] end.

(** closed entities and the one being read *)
Definition all_structs (s : store) := structs s ++ olist (c_struct s).
Definition all_enums (s : store) := enums s ++ olist (c_enum s).
Definition all_groups (s : store) := groups s ++ olist (c_group s).

Definition gkey (g : pgroup) : nat * nat * text := (g_id g, g_parent g, g_name g).
Definition has_group (s : store) (id parent : nat) (name : text) : Prop :=
  In (id, parent, name) (map gkey (all_groups s)).

Definition fids (x : pstruct) : list nat := map f_id (s_fields x).

(** every id given to a struct, field, enum or group *)
Definition all_ids (s : store) : list nat :=
  map s_id (all_structs s) ++ flat_map fids (all_structs s) ++ map f_id (olist (c_field s)) ++
  map e_id (all_enums s) ++ map g_id (all_groups s).

(** [path] read from scope [parent] names the entity [id] *)
Inductive names_from (s : store) : nat -> list text -> nat -> Prop :=
| NF_enum : forall e, In e (enums s) -> names_from s (e_parent e) [e_name e] (e_id e)
| NF_struct : forall x, In x (structs s) -> names_from s (s_parent x) [s_name x] (s_id x)
| NF_group : forall gid parent name p id,
    has_group s gid parent name -> names_from s gid p id -> names_from s parent (name :: p) id.

(** a type path is a primitive, or names an entity from the own group or from
    the root *)
Definition resolved (s : store) (own : nat) (tpath : list text) (prim : option text)
           (ref : option nat) : Prop :=
  (exists k, tpath = [k] /\ is_primitive k = true /\ prim = Some k /\ ref = None) \/
  (exists id, ref = Some id /\ (names_from s own tpath id \/ names_from s 0 tpath id)).

(** names of the groups around a scope, outermost first *)
Inductive scope_path (s : store) : nat -> list text -> Prop :=
| SP_root : scope_path s 0 []
| SP_group : forall gid parent name p,
    has_group s gid parent name -> scope_path s parent p -> scope_path s gid (p ++ [name]).

Definition good_field (s : store) (x : pstruct) (f : pfield) : Prop :=
  f_parent f = s_id x /\ s_id x < f_id f /\
  resolved s (s_parent x) (f_tpath f) (Some (f_kind f)) (f_ref f) /\
  (forall id, f_ref f = Some id -> id < s_id x /\ f_kind f = last (f_tpath f) []).

Definition good_struct (s : store) (x : pstruct) : Prop :=
  NoDup (map f_name (s_fields x)) /\ Forall (good_field s x) (s_fields x) /\
  scope_path s (s_parent x) (s_path x).

Definition good_item (s : store) (e : penum) (i : pitem) : Prop :=
  (i_tpath i = [] /\ i_types i = Some (txt "str") /\ i_ref i = None /\ i_rep i = false) \/
  (resolved s (e_parent e) (i_tpath i) (i_types i) (i_ref i) /\
   forall id, i_ref i = Some id -> id < e_id e /\ i_types i = None).

Definition good_enum (s : store) (e : penum) : Prop :=
  Forall (good_item s e) (e_items e) /\ scope_path s (e_parent e) (e_path e).

(** ** Monotonicity *)

Definition ext (s s' : store) : Prop :=
  incl (structs s) (structs s') /\ incl (enums s) (enums s') /\
  incl (map gkey (all_groups s)) (map gkey (all_groups s')).

Lemma ext_refl : forall s, ext s s.
Proof. repeat split; apply incl_refl. Qed.

Lemma ext_trans : forall a b c, ext a b -> ext b c -> ext a c.
Proof. intros a b c (A1&A2&A3) (B1&B2&B3). repeat split; eapply incl_tran; eauto. Qed.

Lemma names_ext : forall s s', ext s s' -> forall p path id,
  names_from s p path id -> names_from s' p path id.
Proof.
  intros s s' (E1&E2&E3) p path id H. induction H.
  - apply NF_enum. auto.
  - apply NF_struct. auto.
  - eapply NF_group; [apply E3; exact H | exact IHnames_from].
Qed.

Lemma resolved_ext : forall s s', ext s s' -> forall o p k r,
  resolved s o p k r -> resolved s' o p k r.
Proof.
  intros s s' E o p k r [H | (id & H & H')]; [left; exact H|].
  right. exists id. split; auto. destruct H'; [left | right]; eapply names_ext; eauto.
Qed.

Lemma scope_ext : forall s s', ext s s' -> forall p path,
  scope_path s p path -> scope_path s' p path.
Proof.
  intros s s' (E1&E2&E3) p path H. induction H; [constructor|].
  eapply SP_group; [apply E3; exact H | exact IHscope_path].
Qed.

Lemma good_field_ext : forall s s' x f, ext s s' -> good_field s x f -> good_field s' x f.
Proof. intros s s' x f E (A&B&C&D). repeat split; auto; try apply (D _ H); eapply resolved_ext; eauto. Qed.

Lemma good_struct_ext : forall s s' x, ext s s' -> good_struct s x -> good_struct s' x.
Proof.
  intros s s' x E (A&B&C). repeat split; auto; [|eapply scope_ext; eauto].
  eapply Forall_impl; [|exact B]. intros f. apply good_field_ext; auto.
Qed.

Lemma good_item_ext : forall s s' e i, ext s s' -> good_item s e i -> good_item s' e i.
Proof.
  intros s s' e i E [H | (A&B)]; [left; exact H | right; split; auto]. eapply resolved_ext; eauto.
Qed.

Lemma good_enum_ext : forall s s' e, ext s s' -> good_enum s e -> good_enum s' e.
Proof.
  intros s s' x E (A&B). split; [|eapply scope_ext; eauto].
  eapply Forall_impl; [|exact A]. intros f. apply good_item_ext; auto.
Qed.

(** ** The invariant *)

Definition cnt (s : store) (i : nat) : nat := count_occ Nat.eq_dec (all_ids s) i.


Record inv (s : store) : Prop := mkInv {
  I_cnt : forall i, cnt s i <= 1;
  I_range : forall i, 0 < cnt s i -> 0 < i <= seq s;
  I_parent : forall id p n, has_group s id p n ->
    p < id /\ (p = 0 \/ exists p' n', has_group s p p' n');
  I_structs : Forall (good_struct s) (all_structs s);
  I_enums : Forall (good_enum s) (all_enums s);
  I_open_s : forall x, c_struct s = Some x ->
     c_enum s = None /\ s_parent x = group_id s /\
     (forall i, In i (map s_id (structs s) ++ map e_id (enums s)) -> i < s_id x);
  I_open_e : forall e, c_enum s = Some e ->
     c_struct s = None /\ e_parent e = group_id s /\
     (forall i, In i (map s_id (structs s) ++ map e_id (enums s)) -> i < e_id e)
}.

(** what the expectation says about the field or variant being read *)
Definition idle (xs : list expect) : Prop :=
  xs = at_start \/ xs = after_open \/ xs = after_close \/ xs = after_semi \/
  xs = [XStructName] \/ xs = [XEnumName] \/ xs = [XGroupName] \/ xs = [XOpen].
Definition typing (xs : list expect) : Prop :=
  xs = after_type \/ xs = [XFieldType] \/ xs = [XFieldName].
Definition accepting (xs : list expect) : Prop :=
  xs = [XSemicolon] \/ xs = [XSemicolon; XOptionalMark].

Definition link (xs : list expect) (s : store) : Prop :=
  (idle xs /\ c_field s = None /\ (forall e, c_enum s = Some e -> e_cur e = None)) \/
  (typing xs /\
   ((exists e i, c_enum s = Some e /\ e_cur e = Some i /\ c_field s = None /\
       i_types i = None /\ i_ref i = None) \/
    (exists x f, c_enum s = None /\ c_struct s = Some x /\ c_field s = Some f /\
       s_id x < f_id f /\ f_ref f = None))) \/
  (accepting xs /\
   ((exists e, c_enum s = Some e /\ e_cur e = None /\ c_field s = None) \/
    (exists x f, c_enum s = None /\ c_struct s = Some x /\ c_field s = Some f /\
       s_id x < f_id f /\
       resolved s (s_parent x) (f_tpath f) (Some (f_kind f)) (f_ref f) /\
       (forall id, f_ref f = Some id -> id < s_id x /\ f_kind f = last (f_tpath f) [])))).

(** ** Ids *)

Notation C l i := (count_occ Nat.eq_dec l i).

Lemma cnt_eq : forall s i, cnt s i =
  C (map s_id (structs s)) i + C (map s_id (olist (c_struct s))) i +
  (C (flat_map fids (structs s)) i + C (flat_map fids (olist (c_struct s))) i) +
  C (map f_id (olist (c_field s))) i +
  (C (map e_id (enums s)) i + C (map e_id (olist (c_enum s))) i) +
  (C (map g_id (groups s)) i + C (map g_id (olist (c_group s))) i).
Proof.
  intros. unfold cnt, all_ids, all_structs, all_enums, all_groups.
  rewrite ?map_app, ?flat_map_app, ?count_occ_app. lia.
Qed.

Lemma C_zero : forall l n i, (forall j, In j l -> j <= n) -> n < i -> C l i = 0.
Proof. intros l n i H L. apply count_occ_not_In. intro A. apply H in A. lia. Qed.

Lemma cnt_fresh : forall s i, inv s -> seq s < i -> cnt s i = 0.
Proof.
  intros s i I L. destruct (cnt s i) eqn:E; auto.
  assert (0 < cnt s i) by lia. apply (I_range _ I) in H. lia.
Qed.

Lemma remove_group_count : forall id gs g gs', remove_group id gs = Some (g, gs') ->
  g_id g = id /\ (forall i, C (map g_id gs) i = C (map g_id gs') i + C [g_id g] i) /\
  (forall k, In k (map gkey gs) <-> In k (map gkey gs') \/ k = gkey g).
Proof.
  induction gs as [|h gs IH]; cbn [remove_group]; intros g gs' H; [discriminate|].
  destruct (g_id h =? id) eqn:E.
  - injection H as -> ->. apply Nat.eqb_eq in E. split; [exact E|]. split.
    + intro i. cbn [map count_occ]. destruct (Nat.eq_dec (g_id g) i); lia.
    + intro k. cbn [map In]. intuition congruence.
  - destruct (remove_group id gs) as [[x gs1]|] eqn:R; [|discriminate].
    injection H as -> <-. destruct (IH _ _ eq_refl) as (A & B & D). split; [exact A|]. split.
    + intro i. cbn [map count_occ]. specialize (B i). cbn [count_occ] in B.
      destruct (Nat.eq_dec (g_id h) i); lia.
    + intro k. cbn [map In]. rewrite (D k). intuition congruence.
Qed.

(** ** Paths *)

Lemma get_group_in : forall s id g, get_group s id = Some g -> In g (groups s) /\ g_id g = id.
Proof.
  intros s id g H. apply find_some in H as [A B]. apply Nat.eqb_eq in B. auto.
Qed.

Lemma get_group_none : forall s id g, get_group s id = None -> In g (groups s) -> g_id g <> id.
Proof.
  intros s id g H A E. apply (find_none _ _ H) in A. apply Nat.eqb_neq in A. auto.
Qed.

Lemma has_of_in : forall s g, In g (groups s) -> has_group s (g_id g) (g_parent g) (g_name g).
Proof.
  intros s g H. unfold has_group. change (g_id g, g_parent g, g_name g) with (gkey g).
  apply in_map. apply in_or_app. auto.
Qed.

Lemma has_of_cur : forall s g, c_group s = Some g -> has_group s (g_id g) (g_parent g) (g_name g).
Proof.
  intros s g H. unfold has_group. change (g_id g, g_parent g, g_name g) with (gkey g).
  apply in_map. apply in_or_app. right. rewrite H. left. reflexivity.
Qed.

Lemma has_group_cases : forall s id p n, has_group s id p n ->
  exists g, g_id g = id /\ g_parent g = p /\ g_name g = n /\
            (In g (groups s) \/ c_group s = Some g).
Proof.
  intros s id p n H. apply in_map_iff in H as (g & K & H).
  injection K as <- <- <-. exists g. repeat split; auto.
  apply in_app_or in H as [H | H]; auto. right.
  destruct (c_group s) as [h|]; [|destruct H]. destruct H as [->|[]]. reflexivity.
Qed.

(** the loop of [get_path_by_parent], below the current group *)
Lemma climb_ok : forall s, inv s -> forall fuel parent top,
  parent < fuel -> parent < top -> (forall g, c_group s = Some g -> top <= g_id g) ->
  (parent = 0 \/ exists p n, has_group s parent p n) ->
  exists r, climb fuel s parent = Ok r /\ scope_path s parent (rev r).
Proof.
  intros s I. induction fuel as [|f IH]; intros parent top L1 L2 T E; [lia|].
  cbn [climb]. destruct (get_group s parent) as [g|] eqn:G.
  - apply get_group_in in G as [G1 <-].
    pose proof (has_of_in _ _ G1) as HG.
    destruct (I_parent _ I _ _ _ HG) as [P1 P2].
    destruct (IH (g_parent g) (g_id g)) as (r & R1 & R2); auto; [lia | | ].
    { intros h Hh. specialize (T _ Hh). lia. }
    rewrite R1. cbn [bind]. exists (g_name g :: r). split; [reflexivity|].
    cbn [rev]. eapply SP_group; eauto.
  - exists []. split; [reflexivity|]. destruct E as [-> | (p & n & H)]; [constructor|].
    destruct (has_group_cases _ _ _ _ H) as (g & <- & _ & _ & [A | A]).
    + elim (get_group_none _ _ _ G A). reflexivity.
    + specialize (T _ A). lia.
Qed.

Lemma cur_not_in : forall s g, inv s -> c_group s = Some g ->
  forall h, In h (groups s) -> g_id h <> g_id g.
Proof.
  intros s g I H h A E.
  pose proof (I_cnt _ I (g_id g)) as K. rewrite cnt_eq, H in K. cbn [olist map count_occ] in K.
  destruct (Nat.eq_dec (g_id g) (g_id g)); [|congruence].
  assert (0 < C (map g_id (groups s)) (g_id g)).
  { apply count_occ_In. rewrite <- E. apply in_map. exact A. }
  lia.
Qed.

Lemma path_ok : forall s, inv s ->
  exists p, path_by_parent s (group_id s) = Ok p /\ scope_path s (group_id s) p.
Proof.
  intros s I. unfold path_by_parent, group_id.
  destruct (c_group s) as [g|] eqn:G; [|exists []; split; [reflexivity|constructor]].
  pose proof (has_of_cur _ _ G) as HG. destruct (I_parent _ I _ _ _ HG) as [P1 P2].
  destruct (g_id g =? 0) eqn:Z; [apply Nat.eqb_eq in Z; lia|].
  destruct (get_group s (g_id g)) as [h|] eqn:GG.
  { apply get_group_in in GG as [A B]. elim (cur_not_in _ _ I G _ A B). }
  destruct (g_parent g =? 0) eqn:Z2.
  - apply Nat.eqb_eq in Z2. exists [g_name g]. split; [reflexivity|].
    change [g_name g] with ([] ++ [g_name g]). eapply SP_group; [exact HG|]. rewrite Z2. constructor.
  - destruct (climb_ok s I (S (g_parent g)) (g_parent g) (g_id g)) as (r & R1 & R2); auto.
    { intros k K. rewrite G in K. injection K as <-. lia. }
    rewrite R1. cbn [bind]. exists (rev (g_name g :: r)). split; [reflexivity|].
    cbn [rev]. eapply SP_group; eauto.
Qed.

(** ** References *)

Lemma find_by_path_ok : forall s p parent gs id,
  find_by_path s parent p = Some (gs, id) -> names_from s parent p id.
Proof.
  intros s. induction p as [|t p IH]; cbn [find_by_path]; intros parent gs id H; [discriminate|].
  destruct p as [|t' p].
  - destruct (find _ (enums s)) as [e|] eqn:F.
    + apply find_some in F as [A B]. apply andb_true_iff in B as [B1 B2].
      apply teqb_eq in B1. apply Nat.eqb_eq in B2. injection H as _ <-. subst.
      apply NF_enum. exact A.
    + destruct (find _ (structs s)) as [x|] eqn:F2; [|discriminate].
      apply find_some in F2 as [A B]. apply andb_true_iff in B as [B1 B2].
      apply teqb_eq in B1. apply Nat.eqb_eq in B2. injection H as _ <-. subst.
      apply NF_struct. exact A.
  - destruct (find _ (groups s)) as [g|] eqn:F; [|discriminate].
    apply find_some in F as [A B]. apply andb_true_iff in B as [B1 B2].
    apply teqb_eq in B1. apply Nat.eqb_eq in B2.
    destruct (find_by_path s (g_id g) (t' :: p)) as [[gs' id']|] eqn:R; [|discriminate].
    injection H as _ <-. apply IH in R. subst.
    eapply NF_group; [apply has_of_in; exact A | exact R].
Qed.

Lemma names_from_entity : forall s p path id, names_from s p path id ->
  In id (map s_id (structs s) ++ map e_id (enums s)).
Proof.
  intros s p path id H. induction H; auto; apply in_or_app; [right | left]; apply in_map; auto.
Qed.

Lemma resolve_ok : forall s own p gs id, resolve s own p = Some (gs, id) ->
  (names_from s own p id \/ names_from s 0 p id).
Proof.
  intros s own p gs id. unfold resolve.
  destruct (find_by_path s own p) as [[gs' id']|] eqn:F.
  - intros [= <- <-]. left. eapply find_by_path_ok; eauto.
  - intro H. right. eapply find_by_path_ok; eauto.
Qed.

(** ** Preservation *)

Lemma inv_same : forall s s',
  structs s' = structs s -> enums s' = enums s -> c_struct s' = c_struct s ->
  c_enum s' = c_enum s -> c_field s' = c_field s -> seq s <= seq s' ->
  map gkey (groups s') = map gkey (groups s) ->
  map gkey (olist (c_group s')) = map gkey (olist (c_group s)) ->
  inv s -> inv s' /\ ext s s'.
Proof.
  intros s s' E1 E2 E3 E4 E5 L E6 E7 I.
  assert (EG : map gkey (all_groups s') = map gkey (all_groups s)).
  { unfold all_groups. rewrite !map_app. congruence. }
  assert (X : ext s s').
  { repeat split; [rewrite E1 | rewrite E2 | rewrite EG]; apply incl_refl. }
  assert (GI : forall l l', map gkey l = map gkey l' -> map g_id l = map g_id l').
  { intros l l' H. apply (f_equal (map (fun k => fst (fst k)))) in H.
    rewrite !map_map in H. exact H. }
  assert (CE : forall i, cnt s' i = cnt s i).
  { intro i. rewrite !cnt_eq, E1, E2, E3, E4, E5, (GI _ _ E6), (GI _ _ E7). reflexivity. }
  assert (GID : group_id s' = group_id s).
  { unfold group_id. destruct (c_group s'), (c_group s); cbn [olist map] in E7; try discriminate; auto.
    injection E7 as ? _ _. auto. }
  split; [|exact X]. destruct I. constructor.
  - intro i. rewrite CE. auto.
  - intros i H. rewrite CE in H. specialize (I_range0 _ H). lia.
  - intros id p n. unfold has_group. rewrite EG. apply I_parent0.
  - unfold all_structs. rewrite E1, E3.
    eapply Forall_impl; [|exact I_structs0]. intros. eapply good_struct_ext; eauto.
  - unfold all_enums. rewrite E2, E4.
    eapply Forall_impl; [|exact I_enums0]. intros. eapply good_enum_ext; eauto.
  - intros x. rewrite E1, E2, E3, E4, GID. apply I_open_s0.
  - intros x. rewrite E1, E2, E3, E4, GID. apply I_open_e0.
Qed.

Lemma fresh_entity : forall s i, inv s -> In i (map s_id (structs s) ++ map e_id (enums s)) -> i <= seq s.
Proof.
  intros s i I H. apply (I_range _ I). rewrite cnt_eq.
  apply in_app_or in H as [H | H]; apply (count_occ_In Nat.eq_dec) in H; lia.
Qed.

Lemma Forall_snoc : forall A (P : A -> Prop) l x, Forall P l -> P x -> Forall P (l ++ [x]).
Proof. intros. apply Forall_app. auto. Qed.

(** set the struct being read to a new one *)
Lemma inv_new_struct : forall s x, inv s -> c_struct s = None -> c_enum s = None ->
  0 < s_id x -> s_id x <= seq s -> cnt s (s_id x) = 0 -> s_fields x = [] -> s_parent x = group_id s ->
  (forall i, In i (map s_id (structs s) ++ map e_id (enums s)) -> i < s_id x) ->
  scope_path s (s_parent x) (s_path x) ->
  inv (set_c_struct s (Some x)) /\ ext s (set_c_struct s (Some x)).
Proof.
  intros s x I E1 E2 L1 L2 F E3 E4 E5 SP.
  set (s' := set_c_struct s (Some x)).
  assert (X : ext s s') by (repeat split; apply incl_refl).
  assert (CE : forall i, cnt s' i = cnt s i + C [s_id x] i).
  { intro i. rewrite !cnt_eq. unfold s'. cbn [set_c_struct structs enums groups c_struct c_group c_enum c_field].
    rewrite E1. cbn [olist map flat_map]. unfold fids at 2. rewrite E3. cbn [map app count_occ]. lia. }
  split; [|exact X]. destruct I. constructor.
  - intro i. rewrite CE. cbn [count_occ]. destruct (Nat.eq_dec (s_id x) i); [subst i; lia|].
    specialize (I_cnt0 i). lia.
  - intros i H. rewrite CE in H. cbn [count_occ] in H. unfold s'. cbn [set_c_struct seq].
    destruct (Nat.eq_dec (s_id x) i); [subst; lia|]. apply I_range0. lia.
  - exact I_parent0.
  - unfold all_structs in *. unfold s'. cbn [set_c_struct structs c_struct olist].
    rewrite E1 in I_structs0. cbn [olist] in I_structs0. rewrite app_nil_r in I_structs0.
    apply Forall_snoc; [eapply Forall_impl; [|exact I_structs0]; intros; eapply good_struct_ext; eauto|].
    unfold good_struct. rewrite E3. repeat split; try constructor. eapply scope_ext; [exact X|exact SP].
  - eapply Forall_impl; [|exact I_enums0]; intros; eapply good_enum_ext; eauto.
  - intros y. unfold s'. cbn [set_c_struct structs enums c_struct c_enum]. intros [= <-]. auto.
  - intros e. unfold s'. cbn [set_c_struct structs enums c_struct c_enum]. congruence.
Qed.

Lemma inv_new_enum : forall s x, inv s -> c_struct s = None -> c_enum s = None ->
  0 < e_id x -> e_id x <= seq s -> cnt s (e_id x) = 0 -> e_items x = [] -> e_parent x = group_id s ->
  (forall i, In i (map s_id (structs s) ++ map e_id (enums s)) -> i < e_id x) ->
  scope_path s (e_parent x) (e_path x) ->
  inv (set_c_enum s (Some x)) /\ ext s (set_c_enum s (Some x)).
Proof.
  intros s x I E1 E2 L1 L2 F E3 E4 E5 SP.
  set (s' := set_c_enum s (Some x)).
  assert (X : ext s s') by (repeat split; apply incl_refl).
  assert (CE : forall i, cnt s' i = cnt s i + C [e_id x] i).
  { intro i. rewrite !cnt_eq. unfold s'. cbn [set_c_enum structs enums groups c_struct c_group c_enum c_field].
    rewrite E2. cbn [olist map flat_map count_occ]. lia. }
  split; [|exact X]. destruct I. constructor.
  - intro i. rewrite CE. cbn [count_occ]. destruct (Nat.eq_dec (e_id x) i); [subst i; lia|].
    specialize (I_cnt0 i). lia.
  - intros i H. rewrite CE in H. cbn [count_occ] in H. unfold s'. cbn [set_c_enum seq].
    destruct (Nat.eq_dec (e_id x) i); [subst; lia|]. apply I_range0. lia.
  - exact I_parent0.
  - eapply Forall_impl; [|exact I_structs0]; intros; eapply good_struct_ext; eauto.
  - unfold all_enums in *. unfold s'. cbn [set_c_enum enums c_enum olist].
    rewrite E2 in I_enums0. cbn [olist] in I_enums0. rewrite app_nil_r in I_enums0.
    apply Forall_snoc; [eapply Forall_impl; [|exact I_enums0]; intros; eapply good_enum_ext; eauto|].
    unfold good_enum. rewrite E3. split; [constructor|]. eapply scope_ext; [exact X|exact SP].
  - intros y. unfold s'. cbn [set_c_enum structs enums c_struct c_enum]. congruence.
  - intros e. unfold s'. cbn [set_c_enum structs enums c_struct c_enum]. intros [= <-]. auto.
Qed.

Lemma inv_seq : forall s n, inv s -> seq s <= n -> inv (set_seq s n) /\ ext s (set_seq s n).
Proof. intros s n I L. apply inv_same; auto. Qed.

(** store operations that only add to the closed lists *)
Definition grows (s s' : store) : Prop :=
  seq s <= seq s' /\ (exists l, structs s' = structs s ++ l) /\ (exists l, enums s' = enums s ++ l) /\
  ext s s'.

Lemma grows_same : forall s s', seq s <= seq s' -> structs s' = structs s -> enums s' = enums s ->
  ext s s' -> grows s s'.
Proof.
  intros s s' L A B X. repeat split; auto; try apply X; exists []; rewrite app_nil_r; auto.
Qed.

Lemma grows_refl : forall s, grows s s.
Proof. intro. apply grows_same; auto. apply ext_refl. Qed.

Lemma grows_trans : forall a b c, grows a b -> grows b c -> grows a c.
Proof.
  intros a b c (A1&(A2&A2')&(A3&A3')&A4) (B1&(B2&B2')&(B3&B3')&B4).
  split; [lia|]. split; [exists (A2 ++ B2); rewrite B2', A2', app_assoc; reflexivity|].
  split; [exists (A3 ++ B3); rewrite B3', A3', app_assoc; reflexivity|].
  eapply ext_trans; eauto.
Qed.

Lemma open_struct_inv : forall s name, inv s ->
  match open_struct s name with
  | Ok s' => inv s' /\ grows s s' /\ c_field s' = c_field s /\ c_enum s' = None
  | Err HFuel => False
  | _ => True
  end.
Proof.
  intros s name I. unfold open_struct.
  destruct (c_struct s) eqn:E1; [exact Logic.I|]. destruct (c_enum s) eqn:E2; [exact Logic.I|].
  cbv zeta.
  destruct (inv_seq s (S (seq s)) I) as [I1 X1]; [lia|].
  set (s1 := set_seq s (S (seq s))) in *.
  assert (A : inv (bind_struct_id s1 (seq s1)) /\ ext s1 (bind_struct_id s1 (seq s1))).
  { unfold bind_struct_id. destruct (c_group s1) as [g|] eqn:G; [|split; [exact I1|apply ext_refl]].
    apply inv_same; auto. cbn [set_c_group c_group]. rewrite G. reflexivity. }
  destruct A as [I2 X2].
  assert (K : forall i, cnt (bind_struct_id s1 (seq s1)) i = cnt s i).
  { intro i. rewrite !cnt_eq. unfold bind_struct_id, s1. cbn [set_seq c_group].
    destruct (c_group s) as [g|] eqn:G; cbn [set_c_group set_seq structs enums groups c_struct c_group c_enum c_field];
      [rewrite ?G; reflexivity | rewrite ?G; reflexivity]. }
  assert (K2 : structs (bind_struct_id s1 (seq s1)) = structs s /\ enums (bind_struct_id s1 (seq s1)) = enums s
               /\ c_struct (bind_struct_id s1 (seq s1)) = None /\ c_enum (bind_struct_id s1 (seq s1)) = None
               /\ seq (bind_struct_id s1 (seq s1)) = S (seq s)
               /\ c_field (bind_struct_id s1 (seq s1)) = c_field s).
  { unfold bind_struct_id. destruct (c_group s1); repeat split; auto. }
  set (s2 := bind_struct_id s1 (seq s1)) in *. destruct K2 as (K3&K4&K5&K6&K7&K8).
  destruct (path_ok s2 I2) as (p & P1 & P2). rewrite P1. cbn [bind].
  destruct (inv_new_struct s2 (mkStruct (seq s2) (group_id s2) name [] p)) as [I3 X3];
    cbn [s_id s_fields s_parent s_path]; auto.
  - lia.
  - rewrite K. apply cnt_fresh; auto. lia.
  - intros i H. rewrite K3, K4 in H. apply fresh_entity in H; auto. lia.
  - split; [exact I3|]. split; [|split; [exact K8 | exact K6]].
    apply grows_same; [cbn [set_c_struct seq]; lia | exact K3 | exact K4 |].
    eapply ext_trans; [exact X1|]. eapply ext_trans; [exact X2|]. exact X3.
Qed.

Lemma open_enum_inv : forall s name, inv s ->
  match open_enum s name with
  | Ok s' => inv s' /\ grows s s' /\ c_field s' = c_field s /\
             (forall e, c_enum s' = Some e -> e_cur e = None)
  | Err HFuel => False
  | _ => True
  end.
Proof.
  intros s name I. unfold open_enum.
  destruct (c_struct s) eqn:E1; [exact Logic.I|]. destruct (c_enum s) eqn:E2; [exact Logic.I|].
  cbv zeta.
  destruct (inv_seq s (S (seq s)) I) as [I1 X1]; [lia|].
  set (s1 := set_seq s (S (seq s))) in *.
  assert (A : inv (bind_enum_id s1 (seq s1)) /\ ext s1 (bind_enum_id s1 (seq s1))).
  { unfold bind_enum_id. destruct (c_group s1) as [g|] eqn:G; [|split; [exact I1|apply ext_refl]].
    apply inv_same; auto. cbn [set_c_group c_group]. rewrite G. reflexivity. }
  destruct A as [I2 X2].
  assert (K : forall i, cnt (bind_enum_id s1 (seq s1)) i = cnt s i).
  { intro i. rewrite !cnt_eq. unfold bind_enum_id, s1. cbn [set_seq c_group].
    destruct (c_group s) as [g|] eqn:G; cbn [set_c_group set_seq structs enums groups c_struct c_group c_enum c_field];
      [rewrite ?G; reflexivity | rewrite ?G; reflexivity]. }
  assert (K2 : structs (bind_enum_id s1 (seq s1)) = structs s /\ enums (bind_enum_id s1 (seq s1)) = enums s
               /\ c_struct (bind_enum_id s1 (seq s1)) = None /\ c_enum (bind_enum_id s1 (seq s1)) = None
               /\ seq (bind_enum_id s1 (seq s1)) = S (seq s)
               /\ c_field (bind_enum_id s1 (seq s1)) = c_field s).
  { unfold bind_enum_id. destruct (c_group s1); repeat split; auto. }
  set (s2 := bind_enum_id s1 (seq s1)) in *. destruct K2 as (K3&K4&K5&K6&K7&K8).
  destruct (path_ok s2 I2) as (p & P1 & P2). rewrite P1. cbn [bind].
  destruct (inv_new_enum s2 (mkEnum (seq s2) (group_id s2) name [] p None)) as [I3 X3];
    cbn [e_id e_items e_parent e_path]; auto.
  - lia.
  - rewrite K. apply cnt_fresh; auto. lia.
  - intros i H. rewrite K3, K4 in H. apply fresh_entity in H; auto. lia.
  - split; [exact I3|]. split; [|split; [exact K8|]].
    + apply grows_same; [cbn [set_c_enum seq]; lia | exact K3 | exact K4 |].
      eapply ext_trans; [exact X1|]. eapply ext_trans; [exact X2|]. exact X3.
    + cbn [set_c_enum c_enum]. intros e [= <-]. reflexivity.
Qed.

Lemma open_group_inv : forall s name, inv s ->
  match open_group s name with
  | Ok s' => inv s' /\ grows s s' /\ c_field s' = c_field s /\ c_enum s' = None
  | Err HFuel => False
  | _ => True
  end.
Proof.
  intros s name I. unfold open_group.
  destruct (c_struct s) eqn:E1; [exact Logic.I|]. destruct (c_enum s) eqn:E2; [exact Logic.I|].
  cbv zeta.
  set (s' := set_path _ _).
  assert (F : structs s' = structs s /\ enums s' = enums s /\ c_struct s' = None /\ c_enum s' = None /\
              c_field s' = c_field s /\ seq s' = S (seq s) /\
              map gkey (groups s') = map gkey (groups s ++ olist (c_group s)) /\
              c_group s' = Some (mkGroup (S (seq s)) (group_id s) name [] [] [])).
  { unfold s', bind_group_id. cbn [set_seq c_group]. destruct (c_group s) as [g|] eqn:G;
      cbn [set_path set_c_group set_groups set_seq structs enums groups c_struct c_group c_enum c_field seq path];
      repeat split; auto; cbn [olist]; rewrite ?app_nil_r, ?map_app; reflexivity. }
  clearbody s'. destruct F as (F1&F2&F3&F4&F5&F6&F7&F8).
  assert (AG : map gkey (all_groups s') = map gkey (all_groups s) ++ [(S (seq s), group_id s, name)]).
  { unfold all_groups at 1. rewrite map_app, F7, F8. reflexivity. }
  assert (X : ext s s').
  { repeat split; [rewrite F1; apply incl_refl | rewrite F2; apply incl_refl |].
    rewrite AG. apply incl_appl, incl_refl. }
  assert (CE : forall i, cnt s' i = cnt s i + C [S (seq s)] i).
  { intro i. rewrite !cnt_eq, F1, F2, F3, F4, F5, F8, E1, E2. cbn [olist map flat_map].
    assert (H : map g_id (groups s') = map g_id (groups s ++ olist (c_group s))).
    { apply (f_equal (map (fun k => fst (fst k)))) in F7. rewrite !map_map in F7. exact F7. }
    rewrite H, map_app, count_occ_app. cbn [g_id]. lia. }
  split.
  2:{ split; [|auto]. apply grows_same; auto. lia. }
  destruct I as [Ic Ir Ip Is Ie Ios Ioe]. constructor.
  - intro i. rewrite CE. cbn [count_occ]. destruct (Nat.eq_dec (S (seq s)) i) as [<-|N].
    + destruct (cnt s (S (seq s))) eqn:Z; [lia|].
      assert (HH : 0 < cnt s (S (seq s))) by lia. apply Ir in HH. lia.
    + specialize (Ic i). lia.
  - intros i H. rewrite CE in H. cbn [count_occ] in H. rewrite F6.
    destruct (Nat.eq_dec (S (seq s)) i); [lia|]. assert (0 < cnt s i) by lia. apply Ir in H0. lia.
  - intros id p n H. unfold has_group in *. rewrite AG in *. apply in_app_or in H as [H | H].
    + destruct (Ip _ _ _ H) as [A [B | (p' & n' & B)]]; split; auto.
      right. exists p', n'. apply in_or_app. auto.
    + destruct H as [H|[]]. injection H as <- <- <-. unfold group_id.
      destruct (c_group s) as [g|] eqn:G; [|split; [lia|auto]].
      assert (HH : 0 < cnt s (g_id g)).
      { rewrite cnt_eq, G. cbn [olist map count_occ]. destruct (Nat.eq_dec (g_id g) (g_id g)); lia. }
      apply Ir in HH. split; [lia|]. right. exists (g_parent g), (g_name g).
      apply in_or_app. left. apply has_of_cur. exact G.
  - unfold all_structs in *. rewrite F1, F3. rewrite E1 in Is.
    eapply Forall_impl; [|exact Is]. intros. eapply good_struct_ext; eauto.
  - unfold all_enums in *. rewrite F2, F4. rewrite E2 in Ie.
    eapply Forall_impl; [|exact Ie]. intros. eapply good_enum_ext; eauto.
  - intros x H. congruence.
  - intros x H. congruence.
Qed.

Lemma inv_set_field : forall s o n, inv s -> seq s <= n ->
  (forall i, cnt (set_c_field s o) i <= 1) ->
  (forall i, 0 < cnt (set_c_field s o) i -> 0 < i <= n) ->
  inv (set_c_field (set_seq s n) o) /\ ext s (set_c_field (set_seq s n) o).
Proof.
  intros s o n I L A B.
  assert (X : ext s (set_c_field (set_seq s n) o)) by (repeat split; apply incl_refl).
  split; [|exact X]. destruct I as [Ic Ir Ip Is Ie Ios Ioe]. constructor; auto.
  - eapply Forall_impl; [|exact Is]. intros. eapply good_struct_ext; eauto.
  - eapply Forall_impl; [|exact Ie]. intros. eapply good_enum_ext; eauto.
Qed.

(** replacing the field being read by one with the same id *)
Lemma inv_same_field : forall s f f', inv s -> c_field s = Some f -> f_id f' = f_id f ->
  inv (set_c_field s (Some f')) /\ ext s (set_c_field s (Some f')).
Proof.
  intros s f f' I E1 E2.
  assert (K : forall i, cnt (set_c_field s (Some f')) i = cnt s i).
  { intro i. rewrite !cnt_eq, E1. cbn [set_c_field structs enums groups c_struct c_group c_enum c_field olist map].
    rewrite E2. reflexivity. }
  destruct (inv_set_field s (Some f') (seq s) I) as [I' X']; auto.
  - intro i. rewrite K. apply I_cnt. exact I.
  - intros i H. rewrite K in H. apply (I_range _ I). exact H.
Qed.

Lemma inv_set_enum : forall s e e', inv s -> c_enum s = Some e ->
  e_id e' = e_id e -> e_parent e' = e_parent e -> e_path e' = e_path e ->
  Forall (good_item s e') (e_items e') ->
  inv (set_c_enum s (Some e')) /\ ext s (set_c_enum s (Some e')).
Proof.
  intros s e e' I E1 E2 E3 E4 G.
  assert (X : ext s (set_c_enum s (Some e'))) by (repeat split; apply incl_refl).
  assert (K : forall i, cnt (set_c_enum s (Some e')) i = cnt s i).
  { intro i. rewrite !cnt_eq, E1. cbn [set_c_enum structs enums groups c_struct c_group c_enum c_field olist map].
    rewrite E2. reflexivity. }
  split; [|exact X]. destruct I as [Ic Ir Ip Is Ie Ios Ioe]. constructor; auto.
  - intro i. rewrite K. auto.
  - intros i H. rewrite K in H. apply Ir. exact H.
  - eapply Forall_impl; [|exact Is]. intros. eapply good_struct_ext; eauto.
  - unfold all_enums in *. rewrite E1 in Ie. cbn [set_c_enum enums c_enum olist] in *.
    apply Forall_app in Ie as [Ie1 Ie2]. apply Forall_app. split.
    + eapply Forall_impl; [|exact Ie1]. intros. eapply good_enum_ext; eauto.
    + constructor; [|constructor]. inversion Ie2; subst. destruct H1 as [_ H1].
      split; [eapply Forall_impl; [|exact G]; intros; eapply good_item_ext; eauto|].
      rewrite E3, E4. eapply scope_ext; eauto.
  - intros x H. destruct (Ios x H) as (A & _). congruence.
  - intros x H. cbn [set_c_enum c_enum] in H. injection H as <-.
    destruct (Ioe _ E1) as (A & B & D). cbn [set_c_enum c_struct]. rewrite E2, E3. auto.
Qed.

Lemma NoDup_snoc : forall A (l : list A) x, NoDup l -> ~ In x l -> NoDup (l ++ [x]).
Proof.
  induction l as [|y l IH]; intros x H N; cbn [app].
  - repeat constructor. intros [].
  - inversion H; subst. constructor.
    + rewrite in_app_iff. intros [Z | [Z|[]]]; [contradiction|]. subst. apply N. left. reflexivity.
    + apply IH; auto. intro Z. apply N. right. exact Z.
Qed.

Lemma close_field_inv : forall s x f, inv s -> c_struct s = Some x -> c_field s = Some f ->
  s_id x < f_id f -> resolved s (s_parent x) (f_tpath f) (Some (f_kind f)) (f_ref f) ->
  (forall id, f_ref f = Some id -> id < s_id x /\ f_kind f = last (f_tpath f) []) ->
  match close_field s with
  | Ok s' => inv s' /\ grows s s' /\ c_field s' = None /\ c_enum s' = c_enum s
  | Err HFuel => False
  | _ => True
  end.
Proof.
  intros s x f I E1 E2 L R Q. unfold close_field. rewrite E1, E2.
  destruct (existsb _ (s_fields x)) eqn:D; [exact Logic.I|].
  set (f' := mkField _ _ _ _ _ _ _ _ _). set (x' := mkStruct _ _ _ _ _).
  set (s' := set_c_field _ _).
  assert (X : ext s s') by (repeat split; apply incl_refl).
  assert (K : forall i, cnt s' i = cnt s i).
  { intro i. rewrite !cnt_eq, E1, E2. unfold s'.
    cbn [set_c_field set_c_struct structs enums groups c_struct c_group c_enum c_field olist map flat_map].
    assert (FX : fids x' = fids x ++ [f_id f]) by (unfold fids, x'; cbn [s_fields]; rewrite map_app; reflexivity).
    rewrite FX, !app_nil_r, count_occ_app. change (s_id x') with (s_id x). cbn [count_occ].
    destruct (Nat.eq_dec (f_id f) i); lia. }
  destruct I as [Ic Ir Ip Is Ie Ios Ioe].
  assert (I' : inv s').
  { constructor; auto.
    - intro i. rewrite K. auto.
    - intros i H. rewrite K in H. apply Ir in H. exact H.
    - unfold all_structs in *. rewrite E1 in Is. unfold s'.
      cbn [set_c_field set_c_struct structs c_struct olist] in *.
      apply Forall_app in Is as [Is1 Is2]. apply Forall_app. split.
      + eapply Forall_impl; [|exact Is1]. intros. eapply good_struct_ext; eauto.
      + constructor; [|constructor]. inversion Is2; subst. destruct H1 as (N & GF & SP).
        unfold x'. split; [|split]; cbn [s_fields s_parent s_path].
        * rewrite map_app. cbn [map f_name f']. apply NoDup_snoc; auto.
          intro A. apply in_map_iff in A as (g & A1 & A2).
          assert (existsb (fun g => teqb (f_name g) (f_name f)) (s_fields x) = true).
          { apply existsb_exists. exists g. split; auto. apply teqb_eq. exact A1. }
          congruence.
        * apply Forall_snoc.
          -- eapply Forall_impl; [|exact GF]. intros g (A1&A2&A3&A4).
             split; [exact A1|]. split; [exact A2|]. split; [|exact A4].
             eapply resolved_ext; eauto.
          -- unfold good_field. cbn [f_parent f_id f_tpath f_kind f_ref s_id s_parent f'].
             split; [reflexivity|]. split; [exact L|]. split; [|exact Q].
             eapply resolved_ext; eauto.
        * eapply scope_ext; eauto.
    - eapply Forall_impl; [|exact Ie]. intros. eapply good_enum_ext; eauto.
    - intros y H. unfold s' in H. cbn [set_c_field set_c_struct c_struct] in H. injection H as <-.
      destruct (Ios _ E1) as (A & B & Z). unfold x'. cbn [s_id s_parent]. auto.
    - intros e H. destruct (Ioe _ H) as (A & _). congruence. }
  split; [exact I'|]. split; [|split; reflexivity].
  apply grows_same; auto.
Qed.

Lemma close_inv : forall s, inv s -> c_field s = None -> (forall e, c_enum s = Some e -> e_cur e = None) ->
  match close s with
  | Ok s' => inv s' /\ grows s s' /\ c_field s' = None /\ c_enum s' = None /\ c_struct s' = None
  | Err HFuel => False
  | _ => True
  end.
Proof.
  intros s I EF EC. unfold close.
  destruct (c_enum s) as [e|] eqn:E1.
  - set (s' := set_c_enum _ _).
    assert (X : ext s s').
    { repeat split; try apply incl_refl. unfold s'. cbn [set_c_enum set_enums enums]. apply incl_appl, incl_refl. }
    assert (K : forall i, cnt s' i = cnt s i).
    { intro i. rewrite !cnt_eq, E1. unfold s'.
      cbn [set_c_enum set_enums structs enums groups c_struct c_group c_enum c_field olist map].
      rewrite map_app, count_occ_app. cbn [map count_occ]. lia. }
    destruct (I_open_e _ I _ E1) as (A & B & D).
    split; [|split; [|split; [exact EF | split; [reflexivity | exact A]]]].
    2:{ split; [apply Nat.le_refl|]. split; [exists []; symmetry; apply app_nil_r|].
        split; [exists [e]; reflexivity | exact X]. }
    destruct I as [Ic Ir Ip Is Ie Ios Ioe]. constructor; auto.
    + intro i. rewrite K. auto.
    + intros i H. rewrite K in H. apply Ir in H. exact H.
    + eapply Forall_impl; [|exact Is]. intros. eapply good_struct_ext; eauto.
    + unfold all_enums in *. unfold s'. rewrite E1 in Ie. cbn [set_c_enum set_enums enums c_enum olist] in *.
      rewrite app_nil_r. eapply Forall_impl; [|exact Ie]. intros. eapply good_enum_ext; eauto.
    + intros x H. unfold s' in H. cbn [set_c_enum set_enums c_struct] in H. congruence.
    + intros x H. discriminate H.
  - destruct (c_struct s) as [x|] eqn:E2.
    + set (s' := set_c_struct _ _).
      assert (X : ext s s').
      { repeat split; try apply incl_refl. unfold s'. cbn [set_c_struct set_structs structs]. apply incl_appl, incl_refl. }
      assert (K : forall i, cnt s' i = cnt s i).
      { intro i. rewrite !cnt_eq, E2. unfold s'.
        cbn [set_c_struct set_structs structs enums groups c_struct c_group c_enum c_field olist map flat_map].
        rewrite map_app, flat_map_app, !count_occ_app. cbn [map flat_map]. rewrite app_nil_r. change (C [] i) with 0. lia. }
      split; [|split; [|split; [exact EF | split; [exact E1 | reflexivity]]]].
      2:{ split; [apply Nat.le_refl|]. split; [exists [x]; reflexivity|].
          split; [exists []; symmetry; apply app_nil_r | exact X]. }
      destruct I as [Ic Ir Ip Is Ie Ios Ioe]. constructor; auto.
      * intro i. rewrite K. auto.
      * intros i H. rewrite K in H. apply Ir in H. exact H.
      * unfold all_structs in *. unfold s'. rewrite E2 in Is. cbn [set_c_struct set_structs structs c_struct olist] in *.
        rewrite app_nil_r. eapply Forall_impl; [|exact Is]. intros. eapply good_struct_ext; eauto.
      * eapply Forall_impl; [|exact Ie]. intros. eapply good_enum_ext; eauto.
      * intros y H. discriminate H.
      * intros e H. unfold s' in H. cbn [set_c_struct set_structs c_enum] in H. congruence.
    + destruct (c_group s) as [g|] eqn:E3; [|exact Logic.I]. cbv zeta.
      assert (GO : forall s', structs s' = structs s -> enums s' = enums s -> c_struct s' = None ->
                c_enum s' = None -> c_field s' = c_field s -> seq s' = seq s ->
                (forall k, In k (map gkey (all_groups s')) <-> In k (map gkey (all_groups s))) ->
                (forall i, C (map g_id (groups s')) i + C (map g_id (olist (c_group s'))) i =
                           C (map g_id (groups s)) i + C (map g_id (olist (c_group s))) i) ->
                inv s' /\ grows s s' /\ c_field s' = None /\ c_enum s' = None /\ c_struct s' = None).
      { intros s' F1 F2 F3 F4 F5 F6 F7 F8.
        assert (X : ext s s').
        { repeat split; [rewrite F1; apply incl_refl | rewrite F2; apply incl_refl |].
          intros k H. apply F7. exact H. }
        assert (K : forall i, cnt s' i = cnt s i).
        { intro i. rewrite !cnt_eq, F1, F2, F3, F4, F5, E1, E2. specialize (F8 i). lia. }
        split; [|split; [|repeat split; congruence]].
        2:{ apply grows_same; auto. lia. }
        destruct I as [Ic Ir Ip Is Ie Ios Ioe]. constructor; auto.
        - intro i. rewrite K. auto.
        - intros i H. rewrite K in H. rewrite F6. apply Ir in H. exact H.
        - intros id p n H. apply F7 in H. destruct (Ip _ _ _ H) as [A [B | (p' & n' & B)]]; split; auto.
          right. exists p', n'. apply F7. exact B.
        - unfold all_structs in *. rewrite F1, F3. rewrite E2 in Is.
          eapply Forall_impl; [|exact Is]. intros. eapply good_struct_ext; eauto.
        - unfold all_enums in *. rewrite F2, F4. rewrite E1 in Ie.
          eapply Forall_impl; [|exact Ie]. intros. eapply good_enum_ext; eauto.
        - intros x H. congruence.
        - intros x H. congruence. }
      destruct (removelast (path s)) as [|a p] eqn:EP.
      * apply GO; auto.
        -- intro k. unfold all_groups. cbn [set_path set_c_group set_groups groups c_group olist].
           rewrite E3, app_nil_r. reflexivity.
        -- intro i. cbn [set_path set_c_group set_groups groups c_group olist].
           rewrite E3, map_app, count_occ_app. cbn [olist map count_occ]. lia.
      * destruct (remove_group (last (a :: p) 0) (groups s ++ [g])) as [[h gs]|] eqn:R; [|exact Logic.I].
        apply remove_group_count in R as (R1 & R2 & R3).
        apply GO; auto.
        -- intro k. unfold all_groups. cbn [set_path set_c_group set_groups groups c_group olist].
           rewrite E3. cbn [olist]. rewrite (map_app _ gs), in_app_iff, (R3 k). cbn [map In].
           intuition congruence.
        -- intro i. cbn [set_path set_c_group set_groups groups c_group olist].
           specialize (R2 i). rewrite map_app, count_occ_app in R2. rewrite E3. cbn [olist map] in *. lia.
Qed.

Lemma inv_new : inv store_new /\ link at_start store_new.
Proof.
  split.
  - constructor; cbn; try (intros; lia); try constructor; try discriminate; intros ? ? ? [].
  - left. split; [left; reflexivity|]. split; [reflexivity|]. discriminate.
Qed.

(** resolving the type of a field or variant *)
Lemma accept_ftype_ok : forall s own f, f_ref f = None ->
  match accept_ftype s own f with
  | Ok f' => f_id f' = f_id f /\ f_name f' = f_name f /\ f_tpath f' = f_tpath f /\
      f_rep f' = f_rep f /\ f_opt f' = f_opt f /\
      resolved s own (f_tpath f') (Some (f_kind f')) (f_ref f') /\
      (forall id, f_ref f' = Some id ->
         In id (map s_id (structs s) ++ map e_id (enums s)) /\ f_kind f' = last (f_tpath f') [])
  | Err HFuel => False
  | Err HStop => True
  | Panic => False
  end.
Proof.
  intros s own f E. unfold accept_ftype. destruct (f_tpath f) as [|first more] eqn:T; [exact I|].
  destruct (_ && is_primitive first) eqn:P.
  - cbn [f_id f_name f_tpath f_rep f_opt f_kind f_ref]. repeat split; auto.
    + left. exists first. apply andb_true_iff in P as [P1 P2]. destruct more; [|discriminate]. auto.
    + congruence.
    + congruence.
  - destruct (resolve s own (first :: more)) as [[gs id]|] eqn:R; [|exact I].
    apply resolve_ok in R. cbn [f_id f_name f_tpath f_rep f_opt f_kind f_ref]. repeat split; auto.
    + right. exists id. auto.
    + injection H as <-. destruct R as [R | R]; eapply names_from_entity; exact R.
Qed.

Lemma accept_itype_ok : forall s own i, i_ref i = None -> i_types i = None ->
  match accept_itype s own i with
  | Ok i' => i_tpath i' = i_tpath i /\ i_rep i' = i_rep i /\
      resolved s own (i_tpath i') (i_types i') (i_ref i') /\
      (forall id, i_ref i' = Some id ->
         In id (map s_id (structs s) ++ map e_id (enums s)) /\ i_types i' = None)
  | Err HFuel => False
  | Err HStop => True
  | Panic => False
  end.
Proof.
  intros s own f E E'. unfold accept_itype. destruct (i_tpath f) as [|first more] eqn:T; [exact I|].
  destruct (_ && is_primitive first) eqn:P.
  - cbn [i_tpath i_rep i_types i_ref]. repeat split; auto.
    + left. exists first. apply andb_true_iff in P as [P1 P2]. destruct more; [|discriminate]. auto.
    + congruence.
    + congruence.
  - destruct (resolve s own (first :: more)) as [[gs id]|] eqn:R; [|exact I].
    apply resolve_ok in R. cbn [i_tpath i_rep i_types i_ref]. repeat split; auto.
    + right. exists id. auto.
    + injection H as <-. destruct R as [R | R]; eapply names_from_entity; exact R.
Qed.
