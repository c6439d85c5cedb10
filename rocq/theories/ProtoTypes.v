(** From an accepted protocol to the types of the generated codec (WireModel). *)
From Coq Require Import String Ascii NArith List Arith Lia Bool FinFun.
From Verif Require Import Bytes WireModel WireSpec ProtoModel ProtoProofs ProtoInv ProtoRun.
Import ListNotations.
Close Scope string_scope.
Open Scope list_scope.
Open Scope nat_scope.

(** render/rust/mod.rs l.561-583 [get_type_ref], l.449-472 [enum_item_type]: the
    names rendered as Rust primitives *)
Definition prim_of (k : text) : option prim :=
  if teqb k (txt "bool") then Some PBool
  else if teqb k (txt "i8") then Some I8
  else if teqb k (txt "i16") then Some I16
  else if teqb k (txt "i32") then Some I32
  else if teqb k (txt "i64") then Some I64
  else if teqb k (txt "u8") then Some U8
  else if teqb k (txt "u16") then Some U16
  else if teqb k (txt "u32") then Some U32
  else if teqb k (txt "u64") then Some U64
  else if teqb k (txt "f32") then Some F32
  else if teqb k (txt "f64") then Some F64
  else if teqb k (txt "str") then Some PStr
  else None.

(** mod.rs l.561-583: the kind decides first, then the reference; neither is a
    panic of the renderer *)
Definition field_base (ref : nat -> option base) (f : pfield) : option base :=
  match prim_of (f_kind f) with
  | Some p => Some (BPrim p)
  | None => match f_ref f with Some id => ref id | None => None end
  end.

(** mod.rs l.449-472 *)
Definition item_base (ref : nat -> option base) (i : pitem) : option base :=
  match i_types i with
  | Some k => option_map BPrim (prim_of k)
  | None => match i_ref i with Some id => ref id | None => None end
  end.

(** mod.rs l.52-264 [structs]: one entry per field, in order *)
Fixpoint conv_fields (ref : nat -> option base) (l : list pfield) : option fields :=
  match l with
  | [] => Some FNil
  | f :: l =>
    match field_base ref f, conv_fields ref l with
    | Some b, Some fs => Some (FCons (N.of_nat (f_id f)) (f_opt f) (f_rep f) b fs)
    | _, _ => None
    end
  end.

(** mod.rs l.266-447 [enums]: one variant per item, numbered by position *)
Fixpoint conv_items (ref : nat -> option base) (l : list pitem) : option variants :=
  match l with
  | [] => Some VNil
  | i :: l =>
    match item_base ref i, conv_items ref l with
    | Some b, Some vs => Some (VCons (i_rep i) b vs)
    | _, _ => None
    end
  end.

(** the type rendered for the entity [id], references unfolded *)
Fixpoint type_of (fuel : nat) (s : store) (id : nat) : option base :=
  match fuel with
  | O => None
  | S f =>
    match find (fun x => s_id x =? id) (structs s) with
    | Some x => option_map BStruct (conv_fields (type_of f s) (s_fields x))
    | None =>
      match find (fun e => e_id e =? id) (enums s) with
      | Some e => option_map BEnum (conv_items (type_of f s) (e_items e))
      | None => None
      end
    end
  end.

(** mod.rs l.738-789 [buffer]: the arms of the generated [get_msg] *)
Fixpoint table_of (s : store) (ids : list nat) : option (list (N * base)) :=
  match ids with
  | [] => Some []
  | i :: ids =>
    match type_of (S i) s i, table_of s ids with
    | Some b, Some t => Some ((N.of_nat i, b) :: t)
    | _, _ => None
    end
  end.
Definition message_ids (s : store) : list nat := map e_id (enums s) ++ map s_id (structs s).
Definition message_table (s : store) : option (list (N * base)) := table_of s (message_ids s).

(** What the renderer and rustc reject in accepted protocols: the primitives
    char, isize, usize (the renderer panics), optional arrays of enums (the
    generated code does not compile), more than 2^16 ids or variants. *)
Definition renderable (s : store) : Prop :=
  (forall x f, In x (structs s) -> In f (s_fields x) ->
     f_ref f = None -> prim_of (f_kind f) <> None) /\
  (forall e i k, In e (enums s) -> In i (e_items e) -> i_types i = Some k -> prim_of k <> None) /\
  (forall x f e, In x (structs s) -> In f (s_fields x) -> In e (enums s) ->
     f_ref f = Some (e_id e) -> f_opt f = true -> f_rep f = true -> prim_of (f_kind f) <> None) /\
  (forall e, In e (enums s) -> (N.of_nat (length (e_items e)) <= 65536)%N) /\
  (N.of_nat (seq s) < 65536)%N.

(** ** Every entity has a well-formed type *)

Lemma find_unique : forall (A : Type) (key : A -> nat) l x,
  NoDup (map key l) -> In x l -> find (fun y => key y =? key x) l = Some x.
Proof.
  induction l as [|y l IH]; intros x N H; [destruct H|].
  cbn [map] in N. inversion N; subst. cbn [find].
  destruct H as [-> | H]; [rewrite Nat.eqb_refl; reflexivity|].
  destruct (key y =? key x) eqn:E; [|apply IH; auto].
  apply Nat.eqb_eq in E. elim H2. rewrite E. apply in_map. exact H.
Qed.

Lemma find_key_none : forall (A : Type) (key : A -> nat) l i,
  ~ In i (map key l) -> find (fun y => key y =? i) l = None.
Proof.
  intros A key l i H. destruct (find _ l) as [y|] eqn:E; [|reflexivity].
  apply find_some in E as [E1 E2]. apply Nat.eqb_eq in E2. elim H. rewrite <- E2. apply in_map. exact E1.
Qed.

Lemma inv_nodup : forall s, inv s -> NoDup (map s_id (structs s)) /\ NoDup (map e_id (enums s)) /\
  (forall i, In i (map s_id (structs s)) -> In i (map e_id (enums s)) -> False) /\
  (forall x, In x (structs s) -> NoDup (fids x)) /\
  (forall x i, In x (structs s) -> In i (fids x) -> i <= seq s) /\
  NoDup (message_ids s).
Proof.
  intros s I.
  assert (K : forall i, C (map s_id (structs s)) i + C (map e_id (enums s)) i + C (flat_map fids (structs s)) i <= 1).
  { intro i. pose proof (I_cnt _ I i) as H. rewrite cnt_eq in H. lia. }
  assert (A : NoDup (map s_id (structs s))).
  { apply (NoDup_count_occ Nat.eq_dec). intro i. specialize (K i). lia. }
  assert (B : NoDup (map e_id (enums s))).
  { apply (NoDup_count_occ Nat.eq_dec). intro i. specialize (K i). lia. }
  assert (D : forall i, In i (map s_id (structs s)) -> In i (map e_id (enums s)) -> False).
  { intros i H1 H2. apply (count_occ_In Nat.eq_dec) in H1, H2. specialize (K i). lia. }
  assert (F : forall x i, In x (structs s) -> C (fids x) i <= C (flat_map fids (structs s)) i).
  { intros x i H. apply in_split in H as (l1 & l2 & ->).
    rewrite flat_map_app. cbn [flat_map]. rewrite !count_occ_app. lia. }
  repeat split; auto.
  - intros x H. apply (NoDup_count_occ Nat.eq_dec). intro i. specialize (F x i H). specialize (K i). lia.
  - intros x i H1 H2. apply (I_range _ I). rewrite cnt_eq. apply (count_occ_In Nat.eq_dec) in H2.
    specialize (F x i H1). lia.
  - unfold message_ids. apply (NoDup_count_occ Nat.eq_dec). intro i. rewrite count_occ_app.
    specialize (K i). lia.
Qed.

Lemma good_structs : forall s, inv s -> Forall (good_struct s) (structs s) /\ Forall (good_enum s) (enums s).
Proof.
  intros s I. pose proof (I_structs _ I) as A. pose proof (I_enums _ I) as B.
  unfold all_structs, all_enums in *. apply Forall_app in A as [A _]. apply Forall_app in B as [B _]. auto.
Qed.

Definition entity (s : store) (id : nat) : Prop :=
  In id (map s_id (structs s) ++ map e_id (enums s)).

Lemma conv_fields_ok : forall ref (P : pfield -> base -> Prop) l,
  (forall f, In f l -> exists b, field_base ref f = Some b /\ P f b) ->
  exists fs, conv_fields ref l = Some fs /\
    field_ids fs = map (fun f => N.of_nat (f_id f)) l /\
    (forall k f, nth_error l k = Some f -> exists b,
       nth_field fs k = Some (N.of_nat (f_id f), f_opt f, f_rep f, b) /\ P f b /\ field_base ref f = Some b) /\
    (forall Q : N -> bool -> bool -> base -> Prop,
       (forall f b, In f l -> P f b -> Q (N.of_nat (f_id f)) (f_opt f) (f_rep f) b) ->
       forall k id o r b, nth_field fs k = Some (id, o, r, b) -> Q id o r b).
Proof.
  intros ref P. induction l as [|f l IH]; intro H.
  - exists FNil. repeat split; auto.
    + intros [|k] f E; discriminate.
    + intros Q _ [|k] id o r b E; discriminate.
  - destruct (H f (or_introl eq_refl)) as (b & B1 & B2).
    destruct IH as (fs & F1 & F2 & F3 & F4); [intros g G; apply H; right; exact G|].
    exists (FCons (N.of_nat (f_id f)) (f_opt f) (f_rep f) b fs). cbn [conv_fields].
    rewrite B1, F1. split; [reflexivity|]. cbn [field_ids map]. rewrite F2. split; [reflexivity|]. split.
    + intros [|k] g E; cbn [nth_error nth_field] in *; [|apply F3; exact E].
      injection E as <-. exists b. auto.
    + intros Q HQ [|k] id o r b' E; cbn [nth_field] in E.
      * injection E as <- <- <- <-. apply HQ; [left; reflexivity | exact B2].
      * eapply F4; [|exact E]. intros g b0 G. apply HQ. right. exact G.
Qed.

Lemma wf_fields_nth : forall fs,
  (forall k id o r b, nth_field fs k = Some (id, o, r, b) ->
     (id < 65536)%N /\ o && r && is_enum b = false /\ wf_base b) -> wf_fields fs.
Proof.
  induction fs as [|id o r b fs IH]; intro H; cbn [wf_fields]; [exact Logic.I|].
  destruct (H 0 id o r b eq_refl) as (A & B & D). repeat split; auto.
  apply IH. intros k. apply (H (S k)).
Qed.

Lemma conv_items_ok : forall ref l,
  (forall i, In i l -> exists b, item_base ref i = Some b /\ wf_base b) ->
  exists vs, conv_items ref l = Some vs /\ variant_count vs = length l /\ wf_variants vs.
Proof.
  intros ref. induction l as [|i l IH]; intro H.
  - exists VNil. repeat split; auto.
  - destruct (H i (or_introl eq_refl)) as (b & B1 & B2).
    destruct IH as (vs & V1 & V2 & V3); [intros g G; apply H; right; exact G|].
    exists (VCons (i_rep i) b vs). cbn [conv_items]. rewrite B1, V1. cbn [variant_count wf_variants length]. auto.
Qed.

Theorem types_exist : forall s, inv s -> renderable s -> forall n id fuel,
  id < n -> n <= fuel -> entity s id ->
  exists b, type_of fuel s id = Some b /\ wf_base b /\
    (In id (map e_id (enums s)) -> is_enum b = true) /\
    (In id (map s_id (structs s)) -> is_enum b = false).
Proof.
  intros s I (R1 & R2 & R3 & R4 & R5).
  destruct (inv_nodup s I) as (N1 & N2 & N3 & N4 & N5 & _).
  destruct (good_structs s I) as (G1 & G2).
  induction n as [|n IH]; intros id fuel L F E; [lia|].
  destruct fuel as [|fuel]; [lia|]. cbn [type_of].
  destruct (in_dec Nat.eq_dec id (map s_id (structs s))) as [HS|HS].
  - pose proof HS as HS'. apply in_map_iff in HS as (x & <- & X).
    rewrite (find_unique _ s_id _ _ N1 X).
    rewrite Forall_forall in G1. destruct (G1 _ X) as (_ & GF & _). rewrite Forall_forall in GF.
    destruct (conv_fields_ok (type_of fuel s)
                (fun f b => wf_base b /\ f_opt f && f_rep f && is_enum b = false) (s_fields x))
      as (fs & F1 & F2 & F3 & F4).
    { intros f Hf. destruct (GF _ Hf) as (A1 & A2 & A3 & A4). unfold field_base.
      destruct (prim_of (f_kind f)) as [p|] eqn:PK.
      - exists (BPrim p). cbn [is_enum wf_base]. rewrite andb_false_r. auto.
      - destruct (f_ref f) as [r|] eqn:RF; [|elim (R1 _ _ X Hf RF PK)].
        destruct (A4 r eq_refl) as [LT _].
        assert (ER : entity s r).
        { destruct A3 as [(k & _ & _ & _ & Z) | (r' & Z & NF)]; [discriminate|].
          injection Z as <-. destruct NF as [NF|NF]; eapply names_from_entity; exact NF. }
        destruct (IH r fuel) as (b & B1 & B2 & B3 & B4); [lia | lia | exact ER |].
        exists b. split; [exact B1|]. split; [exact B2|].
        destruct (f_opt f) eqn:FO, (f_rep f) eqn:FR; cbn [andb]; auto.
        apply in_app_or in ER as [ER|ER]; [apply B4; exact ER|].
        apply in_map_iff in ER as (e & EE & EI). subst r.
        elim (R3 _ _ _ X Hf EI RF FO FR PK). }
    rewrite F1. cbn [option_map]. exists (BStruct fs). split; [reflexivity|]. cbn [wf_base is_enum].
    split; [split|].
    + rewrite F2. rewrite <- map_map. apply FinFun.Injective_map_NoDup; [intros a b; lia|]. apply N4. exact X.
    + apply wf_fields_nth.
      apply (F4 (fun id o r b => (id < 65536)%N /\ o && r && is_enum b = false /\ wf_base b)).
      intros f b Hf (B1 & B2). split; [|split; auto].
      assert (f_id f <= seq s) by (apply (N5 x); auto; apply in_map; exact Hf). lia.
    + split; [|reflexivity]. intro H. elim (N3 _ HS' H).
  - assert (HE : In id (map e_id (enums s))) by (apply in_app_or in E as [E|E]; [contradiction|exact E]).
    rewrite find_key_none by exact HS.
    pose proof HE as HE'. apply in_map_iff in HE as (e & <- & X).
    rewrite (find_unique _ e_id _ _ N2 X).
    rewrite Forall_forall in G2. destruct (G2 _ X) as (GI & _). rewrite Forall_forall in GI.
    destruct (conv_items_ok (type_of fuel s) (e_items e)) as (vs & V1 & V2 & V3).
    { intros i Hi. unfold item_base.
      destruct (GI _ Hi) as [(A1 & A2 & A3 & A4) | (A1 & A2)].
      - rewrite A2. exists (BPrim PStr). split; [reflexivity | exact Logic.I].
      - destruct (i_types i) as [k|] eqn:IT.
        + destruct (prim_of k) as [p|] eqn:PK; [|elim (R2 _ _ _ X Hi IT PK)].
          exists (BPrim p). split; [reflexivity | exact Logic.I].
        + destruct A1 as [(k & _ & _ & Z & _) | (r & Z & NF)]; [discriminate|]. rewrite Z.
          destruct (A2 r Z) as [LT _].
          destruct (IH r fuel) as (b & B1 & B2 & _); [lia | lia | |].
          * destruct NF as [NF|NF]; eapply names_from_entity; exact NF.
          * exists b. auto. }
    rewrite V1. cbn [option_map]. exists (BEnum vs). split; [reflexivity|]. cbn [wf_base is_enum].
    split; [split; [|exact V3]|].
    + rewrite V2. specialize (R4 _ X). lia.
    + split; [reflexivity|]. intro H. contradiction.
Qed.

(** more fuel does not change a type *)
Lemma conv_fields_mono : forall (r1 r2 : nat -> option base) l fs,
  (forall id b, r1 id = Some b -> r2 id = Some b) ->
  conv_fields r1 l = Some fs -> conv_fields r2 l = Some fs.
Proof.
  intros r1 r2 l fs H. revert fs. induction l as [|f l IH]; cbn [conv_fields]; auto. intros fs.
  unfold field_base. destruct (prim_of (f_kind f)) as [p|].
  - destruct (conv_fields r1 l) as [fs'|]; [|discriminate]. rewrite (IH _ eq_refl). auto.
  - destruct (f_ref f) as [r|]; [|discriminate]. destruct (r1 r) as [b|] eqn:E; [|discriminate].
    rewrite (H _ _ E). destruct (conv_fields r1 l) as [fs'|]; [|discriminate]. rewrite (IH _ eq_refl). auto.
Qed.

Lemma conv_items_mono : forall (r1 r2 : nat -> option base) l vs,
  (forall id b, r1 id = Some b -> r2 id = Some b) ->
  conv_items r1 l = Some vs -> conv_items r2 l = Some vs.
Proof.
  intros r1 r2 l vs H. revert vs. induction l as [|f l IH]; cbn [conv_items]; auto. intros fs.
  unfold item_base. destruct (i_types f) as [p|].
  - destruct (option_map BPrim (prim_of p)); [|discriminate].
    destruct (conv_items r1 l) as [fs'|]; [|discriminate]. rewrite (IH _ eq_refl). auto.
  - destruct (i_ref f) as [r|]; [|discriminate]. destruct (r1 r) as [b|] eqn:E; [|discriminate].
    rewrite (H _ _ E). destruct (conv_items r1 l) as [fs'|]; [|discriminate]. rewrite (IH _ eq_refl). auto.
Qed.

Lemma type_of_mono : forall s f g id b, f <= g -> type_of f s id = Some b -> type_of g s id = Some b.
Proof.
  intros s. induction f as [|f IH]; intros g id b L H; [discriminate|].
  destruct g as [|g]; [lia|]. cbn [type_of] in *.
  destruct (find _ (structs s)) as [x|].
  - destruct (conv_fields (type_of f s) (s_fields x)) as [fs|] eqn:E; [|discriminate].
    rewrite (conv_fields_mono _ (type_of g s) _ _ (fun i b => IH g i b ltac:(lia)) E). exact H.
  - destruct (find _ (enums s)) as [e|]; [|discriminate].
    destruct (conv_items (type_of f s) (e_items e)) as [fs|] eqn:E; [|discriminate].
    rewrite (conv_items_mono _ (type_of g s) _ _ (fun i b => IH g i b ltac:(lia)) E). exact H.
Qed.

Lemma table_exists : forall s, inv s -> renderable s ->
  exists table, message_table s = Some table /\
    map fst table = map N.of_nat (message_ids s) /\ NoDup (map fst table) /\
    Forall (fun ib => wf_base (snd ib)) table /\
    (forall id b fuel, entity s id -> type_of fuel s id = Some b -> In (N.of_nat id, b) table).
Proof.
  intros s I R.
  assert (H : forall ids, (forall i, In i ids -> entity s i) ->
    exists table, table_of s ids = Some table /\ map fst table = map N.of_nat ids /\
      Forall (fun ib => wf_base (snd ib)) table /\
      (forall id b fuel, In id ids -> type_of fuel s id = Some b -> In (N.of_nat id, b) table)).
  { induction ids as [|i ids IH]; intro H.
    - exists []. repeat split; auto.
    - destruct IH as (t & T1 & T2 & T3 & T4); [intros j J; apply H; right; exact J|].
      destruct (types_exist s I R (S i) i (S i)) as (b & B1 & B2 & _); [lia | lia | apply H; left; reflexivity|].
      exists ((N.of_nat i, b) :: t). cbn [table_of]. rewrite B1, T1. cbn [map fst]. rewrite T2.
      split; [reflexivity|]. split; [reflexivity|]. split; [constructor; auto|].
      intros id b' fuel [<- | J] E; [|right; eapply T4; eauto].
      left. f_equal.
      assert (X1 : type_of (fuel + S i) s i = Some b') by (eapply type_of_mono; [|exact E]; lia).
      assert (X2 : type_of (fuel + S i) s i = Some b) by (eapply type_of_mono; [|exact B1]; lia).
      congruence. }
  destruct (H (message_ids s)) as (t & T1 & T2 & T3 & T4).
  { intros i Hi. unfold message_ids in Hi. unfold entity. rewrite in_app_iff in *. tauto. }
  exists t. split; [exact T1|]. split; [exact T2|]. split; [|split; [exact T3|]].
  - rewrite T2. apply FinFun.Injective_map_NoDup; [intros a b; lia|].
    destruct (inv_nodup s I) as (_ & _ & _ & _ & _ & N). exact N.
  - intros id b fuel Hi. apply T4. unfold entity in Hi. unfold message_ids.
    rewrite in_app_iff in *. tauto.
Qed.

(** types of a prefix of the declarations *)
Lemma find_prefix : forall (A : Type) (key : A -> nat) l l' i,
  (In i (map key l) \/ ~ In i (map key (l ++ l'))) ->
  find (fun y => key y =? i) (l ++ l') = find (fun y => key y =? i) l.
Proof.
  intros A key l l' i [H | H].
  - induction l as [|y l IH]; [destruct H|]. cbn [app find].
    destruct (key y =? i) eqn:E; [reflexivity|]. apply IH. destruct H as [H | H]; [|exact H].
    apply Nat.eqb_neq in E. congruence.
  - rewrite !find_key_none; auto. intro K. apply H. rewrite map_app. apply in_or_app. auto.
Qed.

Lemma conv_fields_ext : forall (r1 r2 : nat -> option base) l fs,
  (forall f id b, In f l -> f_ref f = Some id -> r1 id = Some b -> r2 id = Some b) ->
  conv_fields r1 l = Some fs -> conv_fields r2 l = Some fs.
Proof.
  intros r1 r2 l. induction l as [|f l IH]; cbn [conv_fields]; auto. intros fs H.
  assert (IH' : forall fs, conv_fields r1 l = Some fs -> conv_fields r2 l = Some fs).
  { intros fs' E. apply IH; auto. intros g id b G. apply H. right. exact G. }
  assert (B : forall b, field_base r1 f = Some b -> field_base r2 f = Some b).
  { intro b. unfold field_base. destruct (prim_of (f_kind f)); auto.
    destruct (f_ref f) as [id|] eqn:E; auto. apply (H f); auto. left. reflexivity. }
  destruct (field_base r1 f) as [b|]; [|discriminate]. rewrite (B b eq_refl).
  destruct (conv_fields r1 l) as [fs'|]; [|discriminate]. rewrite (IH' fs' eq_refl). auto.
Qed.

Lemma conv_items_ext : forall (r1 r2 : nat -> option base) l fs,
  (forall f id b, In f l -> i_ref f = Some id -> r1 id = Some b -> r2 id = Some b) ->
  conv_items r1 l = Some fs -> conv_items r2 l = Some fs.
Proof.
  intros r1 r2 l. induction l as [|f l IH]; cbn [conv_items]; auto. intros fs H.
  assert (IH' : forall fs, conv_items r1 l = Some fs -> conv_items r2 l = Some fs).
  { intros fs' E. apply IH; auto. intros g id b G. apply H. right. exact G. }
  assert (B : forall b, item_base r1 f = Some b -> item_base r2 f = Some b).
  { intro b. unfold item_base. destruct (i_types f); auto.
    destruct (i_ref f) as [id|] eqn:E; auto. apply (H f); auto. left. reflexivity. }
  destruct (item_base r1 f) as [b|]; [|discriminate]. rewrite (B b eq_refl).
  destruct (conv_items r1 l) as [fs'|]; [|discriminate]. rewrite (IH' fs' eq_refl). auto.
Qed.

Lemma type_of_prefix : forall s s' l1 l2, inv s -> inv s' ->
  structs s' = structs s ++ l1 -> enums s' = enums s ++ l2 ->
  forall fuel id b, entity s id -> type_of fuel s id = Some b -> type_of fuel s' id = Some b.
Proof.
  intros s s' l1 l2 I I' E1 E2.
  destruct (inv_nodup s' I') as (N1 & N2 & N3 & _ & _ & _).
  destruct (good_structs s I) as (G1 & G2). rewrite Forall_forall in G1, G2.
  induction fuel as [|f IH]; intros id b E T; [discriminate|]. cbn [type_of] in *.
  apply in_app_or in E. rewrite E1, E2. rewrite E1 in N3. rewrite E2 in N3.
  assert (F1 : find (fun x => s_id x =? id) (structs s ++ l1) = find (fun x => s_id x =? id) (structs s)).
  { apply find_prefix. destruct E as [E | E]; [left; exact E | right]. intro K. apply (N3 _ K).
    rewrite map_app. apply in_or_app. left. exact E. }
  rewrite F1. destruct (find (fun x => s_id x =? id) (structs s)) as [x|] eqn:FX.
  - destruct (conv_fields (type_of f s) (s_fields x)) as [fs|] eqn:CF; [|discriminate].
    rewrite (conv_fields_ext _ (type_of f s') _ _) with (2 := CF); [exact T|].
    apply find_some in FX as [FX _]. destruct (G1 x FX) as (_ & A & _). rewrite Forall_forall in A.
    intros g i b' Hg Hr Hb. apply IH; [|exact Hb].
    destruct (A g Hg) as (_ & _ & R & _). destruct R as [(k & _ & _ & _ & R) | (j & R1 & R2)]; [congruence|].
    rewrite R1 in Hr. injection Hr as <-. destruct R2 as [R2 | R2]; eapply names_from_entity; eauto.
  - destruct E as [E | E].
    { apply in_map_iff in E as (y & <- & Y). apply (find_none _ _ FX) in Y. rewrite Nat.eqb_refl in Y. discriminate. }
    rewrite find_prefix by (left; exact E).
    destruct (find (fun e => e_id e =? id) (enums s)) as [e|] eqn:FE; [|discriminate].
    destruct (conv_items (type_of f s) (e_items e)) as [fs|] eqn:CF; [|discriminate].
    rewrite (conv_items_ext _ (type_of f s') _ _) with (2 := CF); [exact T|].
    apply find_some in FE as [FE _]. destruct (G2 e FE) as (A & _). rewrite Forall_forall in A.
    intros g i b' Hg Hr Hb. apply IH; [|exact Hb].
    destruct (A g Hg) as [(_ & _ & R & _) | (R & _)]; [congruence|].
    destruct R as [(k & _ & _ & _ & R) | (j & R1 & R2)]; [congruence|].
    rewrite R1 in Hr. injection Hr as <-. destruct R2 as [R2 | R2]; eapply names_from_entity; eauto.
Qed.
