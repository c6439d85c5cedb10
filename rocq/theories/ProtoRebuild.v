(** The store of a well-scoped file describes the file. *)
From Coq Require Import String Ascii NArith List Arith Lia Bool.
From Verif Require Import Bytes ProtoModel ProtoProofs ProtoInv ProtoRun ProtoGrammar ProtoElab ProtoTree ProtoBuild.
Import ListNotations.
Close Scope string_scope.
Open Scope list_scope.
Open Scope nat_scope.

Lemma size_pos : forall d, 0 < size d.
Proof. destruct d; cbn [size]; lia. Qed.

(** entries of a tree: ids in its range, parents outside or in its range *)
Lemma flat_range : forall d p i j q h, In (j, (q, h)) (flat p i d) ->
  i <= j < i + size d /\ (q = p \/ i <= q < i + size d).
Proof.
  induction d as [n fs | n is | n ds IH] using decl_ind'; intros p i j q h H.
  - destruct H as [H | []]. injection H as <- <- <-. pose proof (size_pos (DStruct n fs)). split; [lia | auto].
  - destruct H as [H | []]. injection H as <- <- <-. cbn [size]. split; [lia | auto].
  - rewrite size_group. rewrite flat_group in H. destruct H as [H | H].
    + injection H as <- <- <-. split; [lia | auto].
    + assert (G : forall ds k a, Forall (fun d => forall p i j q h, In (j, (q, h)) (flat p i d) ->
          i <= j < i + size d /\ (q = p \/ i <= q < i + size d)) ds ->
        In (j, (q, h)) (flats a k ds) -> k <= j < k + sizes ds /\ (q = a \/ k <= q < k + sizes ds)).
      { clear. induction ds as [|d ds IHs]; intros k a F H; [destruct H|].
        inversion F as [|? ? F1 F2]; subst. cbn [flats sizes] in *.
        apply in_app_or in H as [H | H].
        - apply F1 in H. lia.
        - apply IHs in H; [lia | exact F2]. }
      apply G in H; [|exact IH]. lia.
Qed.

Lemma flats_range : forall ds p k j q h, In (j, (q, h)) (flats p k ds) ->
  k <= j < k + sizes ds /\ (q = p \/ k <= q < k + sizes ds).
Proof.
  induction ds as [|d ds IH]; intros p k j q h H; [destruct H|]. cbn [flats sizes] in *.
  apply in_app_or in H as [H | H].
  - apply flat_range in H. lia.
  - apply IH in H. lia.
Qed.

(** ascending ids *)
Inductive asc {A} : nat -> list (nat * A) -> Prop :=
| asc_nil : forall k, asc k []
| asc_cons : forall k i x l, k <= i -> asc (S i) l -> asc k ((i, x) :: l).

Lemma asc_le : forall A (l : list (nat * A)) j k, j <= k -> asc k l -> asc j l.
Proof. intros A l j k L H. inversion H; subst; constructor; [lia | assumption]. Qed.

Lemma asc_app : forall A (l1 l2 : list (nat * A)) k m, asc k l1 -> (forall i x, In (i, x) l1 -> i < m) ->
  asc m l2 -> k <= m -> asc k (l1 ++ l2).
Proof.
  intros A l1 l2 k m H. revert m. induction H as [k | k i x l L H IH]; intros m B H2 KM; cbn [app].
  - eapply asc_le; eauto.
  - constructor; [exact L|]. apply (IH m); auto.
    + intros j y J. apply (B j y). right. exact J.
    + specialize (B i x (or_introl eq_refl)). lia.
Qed.

Lemma flat_asc : forall d p i, asc i (flat p i d).
Proof.
  induction d as [n fs | n is | n ds IH] using decl_ind'; intros p i.
  - repeat constructor.
  - repeat constructor.
  - rewrite flat_group. constructor; [lia|].
    assert (G : forall l a k, Forall (fun d => forall p i, asc i (flat p i d)) l -> asc k (flats a k l)).
    { clear. induction l as [|d l IHl]; intros a k F; [constructor|]. inversion F; subst. cbn [flats].
      eapply asc_app with (m := k + size d); auto.
      - intros j [q h] H. apply flat_range in H. lia.
      - lia. }
    apply G. exact IH.
Qed.

Lemma flats_asc : forall l a k, asc k (flats a k l).
Proof.
  induction l as [|d l IHl]; intros a k; [constructor|]. cbn [flats].
  eapply asc_app with (m := k + size d); [apply flat_asc | | apply IHl | lia].
  intros j [q h] H. apply flat_range in H. lia.
Qed.

Lemma asc_ge : forall A (l : list (nat * A)) k i x, asc k l -> In (i, x) l -> k <= i.
Proof.
  intros A l k i x H. induction H; intro K; [destruct K|].
  destruct K as [K | K]; [injection K as <- <-; assumption|]. apply IHasc in K. lia.
Qed.

Lemma asc_unique : forall A (l : list (nat * A)) k i x y, asc k l -> In (i, x) l -> In (i, y) l -> x = y.
Proof.
  intros A l k i x y H. induction H; intros K1 K2; [destruct K1|].
  destruct K1 as [K1 | K1], K2 as [K2 | K2].
  - congruence.
  - injection K1 as -> ->. pose proof (asc_ge _ _ _ _ _ H0 K2). lia.
  - injection K2 as -> ->. pose proof (asc_ge _ _ _ _ _ H0 K1). lia.
  - auto.
Qed.

(** reading an ascending list id by id *)
Lemma scan : forall A B (L : nat -> option A) (f : nat -> A -> list B) n k (l : list (nat * A)),
  asc k l -> (forall i x, In (i, x) l -> i < k + n) ->
  (forall i, k <= i < k + n -> forall x, L i = Some x <-> In (i, x) l) ->
  flat_map (fun i => match L i with Some x => f i x | None => [] end) (List.seq k n) =
  flat_map (fun e => f (fst e) (snd e)) l.
Proof.
  induction n as [|n IH]; intros k l H B0 S0.
  - destruct l as [|[i x] l]; [reflexivity|]. pose proof (asc_ge _ _ _ _ _ H (or_introl eq_refl)).
    specialize (B0 i x (or_introl eq_refl)). lia.
  - cbn [List.seq flat_map]. destruct (L k) as [x|] eqn:E.
    + assert (K : In (k, x) l) by (apply S0; [lia | exact E]).
      destruct H as [k | k i y l L1 H]; [destruct K|].
      assert (i = k /\ y = x) as [-> ->].
      { destruct K as [K | K]; [injection K as -> ->; auto|]. pose proof (asc_ge _ _ _ _ _ H K). lia. }
      cbn [flat_map fst snd]. f_equal. apply IH; [exact H | |].
      * intros i y J. specialize (B0 i y (or_intror J)). lia.
      * intros i R y. rewrite S0 by lia. cbn [In]. split; [|auto]. intros [J | J]; [|exact J]. injection J as -> ->. lia.
    + cbn [app]. apply IH.
      * destruct H as [k | k i y l L1 H]; [constructor|]. constructor; [|exact H].
        destruct (Nat.eq_dec i k) as [-> | N]; [|lia].
        assert (L k = Some y) by (apply S0; [lia | left; reflexivity]). congruence.
      * intros i y J. specialize (B0 i y J). lia.
      * intros i R y. apply S0. lia.
Qed.

Section Rebuild.
  Variable s : store.
  Variable G : list (nat * (nat * head)).
  Hypothesis asc_G : asc 1 G.
  Hypothesis range_G : forall i x, In (i, x) G -> i < 1 + seq s.
  Hypothesis ent_G : forall i x, ent s i = Some x <-> In (i, x) G.

  Definition build (fuel : nat) (i : nat) (h : head) : decl :=
    match h with
    | HStruct n fs => DStruct n fs
    | HEnum n is => DEnum n is
    | HGroup n => DGroup n (match fuel with O => [] | S f => tree f s i end)
    end.
  Definition pick (fuel parent : nat) (e : nat * (nat * head)) : list decl :=
    if fst (snd e) =? parent then [build fuel (fst e) (snd (snd e))] else [].

  Lemma tree_list : forall fuel parent, tree fuel s parent = flat_map (pick fuel parent) G.
  Proof using asc_G range_G ent_G.
    intros fuel parent.
    transitivity (flat_map (fun i => match ent s i with Some x => pick fuel parent (i, x) | None => [] end) (List.seq 1 (seq s))).
    - destruct fuel; cbn [tree]; apply flat_map_ext; intro i; destruct (ent s i) as [[p h]|]; reflexivity.
    - rewrite (scan _ _ (ent s) (fun i x => pick fuel parent (i, x)) (seq s) 1 G asc_G range_G).
      + apply flat_map_ext. intros [i x]. reflexivity.
      + intros i _ x. apply ent_G.
  Qed.

  Lemma pick_none : forall fuel parent l, (forall j q h, In (j, (q, h)) l -> q <> parent) ->
    flat_map (pick fuel parent) l = [].
  Proof using.
    induction l as [|[j [q h]] l IH]; intro H; [reflexivity|]. cbn [flat_map]. unfold pick at 1. cbn [fst snd].
    destruct (q =? parent) eqn:E; [apply Nat.eqb_eq in E; elim (H j q h); [left; reflexivity | exact E]|].
    apply IH. intros j' q' h' J. apply (H j' q' h'). right. exact J.
  Qed.

  Lemma rebuild : forall n ds, sizes ds <= n -> forall fuel p k pre post,
    sizes ds <= fuel -> p < k -> G = pre ++ flats p k ds ++ post ->
    (forall j q h, In (j, (q, h)) (pre ++ post) -> ~ (k <= q < k + sizes ds)) ->
    flat_map (pick fuel p) (flats p k ds) = ds.
  Proof using asc_G range_G ent_G.
    induction n as [|n IH]; intros ds N fuel p k pre post FU PK EG PP.
    - destruct ds as [|d ds]; [reflexivity|]. cbn [sizes] in N. pose proof (size_pos d). lia.
    - destruct ds as [|d ds]; [reflexivity|]. cbn [sizes flats] in *. pose proof (size_pos d).
      rewrite flat_map_app.
      assert (R2 : flat_map (pick fuel p) (flats p (k + size d) ds) = ds).
      { apply (IH ds) with (pre := pre ++ flat p k d) (post := post); try lia.
        - rewrite EG, <- !app_assoc. reflexivity.
        - intros j q h J K. rewrite !in_app_iff in J. destruct J as [[J | J] | J].
          + apply (PP j q h); [apply in_or_app; auto | lia].
          + apply flat_range in J. lia.
          + apply (PP j q h); [apply in_or_app; auto | lia]. }
      rewrite R2. change (d :: ds) with ([d] ++ ds). f_equal.
      destruct d as [m fs | m is | m ds2].
      + cbn [flat flat_map app]. unfold pick. cbn [fst snd build]. rewrite Nat.eqb_refl. reflexivity.
      + cbn [flat flat_map app]. unfold pick. cbn [fst snd build]. rewrite Nat.eqb_refl. reflexivity.
      + rewrite flat_group. rewrite size_group in *. cbn [flat_map].
        rewrite (pick_none fuel p (flats k (S k) ds2)).
        2:{ intros j q h J. apply flats_range in J. lia. }
        unfold pick. cbn [fst snd build]. rewrite Nat.eqb_refl. rewrite app_nil_r. do 2 f_equal.
        destruct fuel as [|f]; [lia|]. rewrite tree_list. rewrite EG. rewrite !flat_map_app.
        rewrite (pick_none f k pre), (pick_none f k post).
        2:{ intros j q h J. specialize (PP j q h). rewrite in_app_iff in PP. specialize (PP (or_intror J)). lia. }
        2:{ intros j q h J. specialize (PP j q h). rewrite in_app_iff in PP. specialize (PP (or_introl J)). lia. }
        rewrite (pick_none f k (flats p (k + S (sizes ds2)) ds)).
        2:{ intros j q h J. apply flats_range in J. lia. }
        rewrite flat_group. cbn [flat_map app]. unfold pick at 1. cbn [fst snd].
        destruct (p =? k) eqn:E; [apply Nat.eqb_eq in E; lia|]. cbn [app]. rewrite !app_nil_r.
        apply (IH ds2) with (pre := pre ++ [(k, (p, HGroup m))]) (post := flats p (k + S (sizes ds2)) ds ++ post); try lia.
        * rewrite EG, flat_group. cbn [app]. rewrite <- !app_assoc. cbn [app]. rewrite <- ?app_assoc. reflexivity.
        * intros j q h J K. rewrite !in_app_iff in J. destruct J as [[J | [J | []]] | [J | J]].
          -- apply (PP j q h); [apply in_or_app; auto | lia].
          -- injection J as <- <- <-. lia.
          -- apply flats_range in J. lia.
          -- apply (PP j q h); [apply in_or_app; auto | lia].
  Qed.
End Rebuild.

(** ** Entities *)

Lemma ent_is : forall s i p h, ent s i = Some (p, h) -> is_ent s i p h.
Proof.
  intros s i p h H. unfold ent in H.
  destruct (find (fun x => s_id x =? i) (structs s)) as [x|] eqn:F1.
  { apply find_some in F1 as [A B]. apply Nat.eqb_eq in B. injection H as <- <-. left. exists x. auto. }
  destruct (find (fun e => e_id e =? i) (enums s)) as [e|] eqn:F2.
  { apply find_some in F2 as [A B]. apply Nat.eqb_eq in B. injection H as <- <-. right. left. exists e. auto. }
  destruct (find (fun g => g_id g =? i) (groups s)) as [g|] eqn:F3; [|discriminate].
  apply find_some in F3 as [A B]. apply Nat.eqb_eq in B. injection H as <- <-. right. right.
  exists (g_name g). split; [|reflexivity]. subst i. apply has_of_in. exact A.
Qed.

Lemma is_ent_some : forall s i p h, c_group s = None -> is_ent s i p h -> ent s i <> None.
Proof.
  intros s i p h CG H. unfold ent.
  destruct (find (fun x => s_id x =? i) (structs s)) as [x|] eqn:F1; [discriminate|].
  destruct (find (fun e => e_id e =? i) (enums s)) as [e|] eqn:F2; [discriminate|].
  destruct (find (fun g => g_id g =? i) (groups s)) as [g|] eqn:F3; [discriminate|].
  destruct H as [(x & A & B & _) | [(x & A & B & _) | (n & A & _)]].
  - apply (find_none _ _ F1) in A. cbv beta in A. rewrite B, Nat.eqb_refl in A. discriminate.
  - apply (find_none _ _ F2) in A. cbv beta in A. rewrite B, Nat.eqb_refl in A. discriminate.
  - destruct (has_group_cases _ _ _ _ A) as (g & G1 & _ & _ & [G | G]); [|congruence].
    apply (find_none _ _ F3) in G. cbv beta in G. rewrite G1, Nat.eqb_refl in G. discriminate.
Qed.

Theorem decls_of_elab : forall ds, Forall decl_syn ds -> wf_decls ds ->
  exists s, elab_decls store_new ds = Some s /\ c_struct s = None /\ c_enum s = None /\ c_field s = None /\
    c_group s = None /\ decls_of s = ds.
Proof.
  intros ds SY WF. destruct (decls_succeed ds SY WF) as (s & E & I & A1 & A2 & A3 & A4 & Q & H).
  exists s. repeat (split; [assumption|]).
  assert (EG : forall i x, ent s i = Some x <-> In (i, x) (flats 0 1 ds)).
  { intros i [p h]. rewrite <- H. split; [apply ent_is|]. intro K.
    destruct (ent s i) as [[p' h']|] eqn:EE; [|elim (is_ent_some s i p h A4 K EE)].
    apply ent_is in EE. apply H in EE. apply H in K.
    rewrite (asc_unique _ _ _ _ _ _ (flats_asc ds 0 1) EE K). reflexivity. }
  assert (RG : forall i x, In (i, x) (flats 0 1 ds) -> i < 1 + seq s).
  { intros i [p h] K. apply flats_range in K. lia. }
  unfold decls_of. rewrite (tree_list s _ (flats_asc ds 0 1) RG EG).
  apply (rebuild s _ (flats_asc ds 0 1) RG EG) with (n := sizes ds) (pre := []) (post := []); try lia.
  - rewrite app_nil_r. reflexivity.
  - intros j q h [].
Qed.

Theorem parse_reads_tree : forall ds t, Forall decl_syn ds -> wf_decls ds -> layout (decls_toks ds) t ->
  exists s, parse t = PAccepted s /\ c_struct s = None /\ c_enum s = None /\ c_field s = None /\
    c_group s = None /\ decls_of s = ds.
Proof.
  intros ds t SY WF L. destruct (decls_of_elab ds SY WF) as (s & E & A). exists s. split; [|exact A].
  eapply parse_elab; eauto.
Qed.
