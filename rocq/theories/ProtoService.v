(** Service structs added for the workflow keep the store invariant. *)
From Coq Require Import String Ascii NArith List Arith Lia Bool.
From Verif Require Import Bytes ProtoModel ProtoProofs ProtoInv ProtoRun ProtoTypes.
Import ListNotations.
Close Scope string_scope.
Open Scope list_scope.
Open Scope nat_scope.

Definition uniq (s : store) : Prop :=
  (forall i, cnt s i <= 1) /\ (forall i, 0 < cnt s i -> 0 < i <= seq s).

Lemma inv_uniq : forall s, inv s -> uniq s.
Proof. intros s I. split; [apply I_cnt; exact I | apply I_range; exact I]. Qed.

(** the two halves of [add_service_struct] *)
Definition with_group (s : store) : store :=
  if existsb is_service (groups s) then s
  else let s := set_seq s (S (seq s)) in
       set_groups s (groups s ++ [mkGroup (seq s) 0 service_group [] [] []]).

Definition upd (sid : nat) : list pgroup -> list pgroup :=
  fix upd gs :=
    match gs with
    | [] => []
    | h :: gs => if is_service h
                 then mkGroup (g_id h) (g_parent h) (g_name h) (g_structs h ++ [sid]) (g_enums h) (g_groups h) :: gs
                 else h :: upd gs
    end.

Definition with_struct (s : store) (g : pgroup) (name : text) (fs : list (text * text * bool)) : store :=
  let p := match path_by_parent s (g_id g) with Ok p => p | _ => [] end in
  let sid := S (seq s) in
  let x := mkStruct sid (g_id g) name (number_fields sid sid fs) p in
  set_structs (set_groups (set_seq s (sid + length fs)) (upd sid (groups s))) (structs s ++ [x]).

Lemma service_eq : forall s name fs, add_service_struct s name fs =
  match find is_service (groups (with_group s)) with
  | None => with_group s
  | Some g => with_struct (with_group s) g name fs
  end.
Proof. intros. unfold add_service_struct, with_group, with_struct. reflexivity. Qed.

Lemma upd_keys : forall sid gs, map gkey (upd sid gs) = map gkey gs.
Proof.
  induction gs as [|h gs IH]; cbn [upd map]; auto.
  destruct (is_service h); cbn [map]; [reflexivity | rewrite IH; reflexivity].
Qed.

Lemma keys_ids : forall l l', map gkey l = map gkey l' -> map g_id l = map g_id l'.
Proof.
  intros l l' H. apply (f_equal (map (fun k => fst (fst k)))) in H. rewrite !map_map in H. exact H.
Qed.

Lemma fids_number : forall sid st fs k,
  map f_id (map (fun p : nat * (text * text * bool) =>
         let '(k, (name, kind, opt)) := p in
         mkField (st + k + 1) sid name kind None [] false opt [kind])
      (combine (List.seq k (length fs)) fs)) = List.seq (st + k + 1) (length fs).
Proof.
  intros sid st fs. induction fs as [|[[n kd] o] fs IH]; intro k; [reflexivity|].
  cbn [length List.seq combine map f_id]. f_equal. rewrite IH. f_equal. lia.
Qed.

Lemma count_seq : forall a n i, count_occ Nat.eq_dec (List.seq a n) i = (if (a <=? i) && (i <? a + n) then 1 else 0).
Proof.
  intros a n i. destruct ((a <=? i) && (i <? a + n)) eqn:E.
  - apply andb_true_iff in E as [E1 E2]. apply Nat.leb_le in E1. apply Nat.ltb_lt in E2.
    assert (H : In i (List.seq a n)) by (apply in_seq; lia).
    apply (count_occ_In Nat.eq_dec) in H.
    pose proof (proj1 (NoDup_count_occ Nat.eq_dec _) (seq_NoDup n a) i). lia.
  - apply count_occ_not_In. rewrite in_seq. apply andb_false_iff in E.
    destruct E as [E | E]; [apply Nat.leb_gt in E | apply Nat.ltb_ge in E]; lia.
Qed.

Lemma with_struct_cnt : forall s g name fs i,
  cnt (with_struct s g name fs) i = cnt s i + C [S (seq s)] i + C (List.seq (S (S (seq s))) (length fs)) i.
Proof.
  intros. rewrite !cnt_eq. unfold with_struct.
  cbn [set_structs set_groups set_seq structs enums groups c_struct c_group c_enum c_field].
  rewrite (keys_ids _ _ (upd_keys _ _)), map_app, flat_map_app, !count_occ_app.
  set (x := mkStruct _ _ _ _ _). cbn [map flat_map]. rewrite app_nil_r.
  assert (F : fids x = List.seq (S (S (seq s))) (length fs)).
  { unfold fids, x. cbn [s_fields]. unfold number_fields. rewrite fids_number. f_equal. lia. }
  rewrite F. change (s_id x) with (S (seq s)). lia.
Qed.

Lemma with_struct_uniq : forall s g name fs, uniq s -> uniq (with_struct s g name fs).
Proof.
  intros s g name fs [U1 U2].
  assert (Z : forall i, seq s < i -> cnt s i = 0).
  { intros i L. destruct (cnt s i) eqn:E; auto. assert (0 < cnt s i) by lia. apply U2 in H. lia. }
  split; intro i; rewrite with_struct_cnt, count_seq; cbn [count_occ].
  - pose proof (U1 i). pose proof (Z i).
    destruct (Nat.eq_dec (S (seq s)) i); destruct ((S (S (seq s)) <=? i) && (i <? S (S (seq s)) + length fs)) eqn:E;
      try (apply andb_true_iff in E as [E1 E2]; apply Nat.leb_le in E1; apply Nat.ltb_lt in E2); lia.
  - intro H. unfold with_struct. cbn [set_structs set_groups set_seq seq].
    destruct (Nat.eq_dec (S (seq s)) i); [lia|].
    destruct ((S (S (seq s)) <=? i) && (i <? S (S (seq s)) + length fs)) eqn:E.
    + apply andb_true_iff in E as [E1 E2]; apply Nat.leb_le in E1; apply Nat.ltb_lt in E2. lia.
    + assert (P : 0 < cnt s i) by lia. apply U2 in P. lia.
Qed.

Lemma with_group_uniq : forall s, uniq s -> uniq (with_group s).
Proof.
  intros s [U1 U2]. unfold with_group. destruct (existsb is_service (groups s)); [split; auto|].
  cbv zeta. set (s' := set_groups _ _).
  assert (K : forall i, cnt s' i = cnt s i + C [S (seq s)] i).
  { intro i. rewrite !cnt_eq. unfold s'. cbn [set_groups set_seq structs enums groups c_struct c_group c_enum c_field seq].
    rewrite map_app, count_occ_app. cbn [map g_id]. lia. }
  assert (Z : cnt s (S (seq s)) = 0).
  { destruct (cnt s (S (seq s))) eqn:E; auto. assert (0 < cnt s (S (seq s))) by lia. apply U2 in H. lia. }
  split; intro i; rewrite K; cbn [count_occ].
  - pose proof (U1 i). destruct (Nat.eq_dec (S (seq s)) i); [subst|]; lia.
  - intro H. unfold s'. cbn [set_groups set_seq seq]. destruct (Nat.eq_dec (S (seq s)) i); [lia|].
    assert (P : 0 < cnt s i) by lia. apply U2 in P. lia.
Qed.

Lemma service_uniq : forall s name fs, uniq s -> uniq (add_service_struct s name fs).
Proof.
  intros s name fs U. rewrite service_eq. pose proof (with_group_uniq s U) as U'.
  destruct (find is_service (groups (with_group s))); [apply with_struct_uniq|]; exact U'.
Qed.

(** the service group always exists afterwards *)
Lemma with_group_found : forall s, exists g, find is_service (groups (with_group s)) = Some g.
Proof.
  intro s. unfold with_group. destruct (existsb is_service (groups s)) eqn:E.
  - apply existsb_exists in E as (g & G1 & G2).
    destruct (find is_service (groups s)) as [h|] eqn:F; [eauto|].
    apply (find_none _ _ F) in G1. congruence.
  - cbv zeta. cbn [set_groups groups set_seq].
    destruct (find is_service (groups s ++ [_])) as [h|] eqn:F; [eauto|].
    assert (X : is_service (mkGroup (S (seq s)) 0 service_group [] [] []) = true) by reflexivity.
    rewrite (find_none _ _ F) in X; [discriminate|]. apply in_or_app. right. left. reflexivity.
Qed.

Definition closed (s : store) : Prop :=
  c_struct s = None /\ c_enum s = None /\ c_field s = None /\ c_group s = None.

Definition field_spec_ok (fs : list (text * text * bool)) : Prop :=
  NoDup (map (fun p => fst (fst p)) fs) /\ Forall (fun p => is_primitive (snd (fst p)) = true) fs.

Lemma with_group_inv : forall s, inv s -> closed s -> inv (with_group s) /\ closed (with_group s) /\ ext s (with_group s).
Proof.
  intros s I (E1 & E2 & E3 & E4). pose proof (with_group_uniq s (inv_uniq s I)) as [U1 U2].
  revert U1 U2. unfold with_group. destruct (existsb is_service (groups s)).
  { intros _ _. split; [exact I|]. split; [repeat split; auto | apply ext_refl]. }
  cbv zeta. set (s' := set_groups _ _). intros U1 U2.
  assert (AG : map gkey (all_groups s') = map gkey (all_groups s) ++ [(S (seq s), 0, service_group)]).
  { unfold all_groups, s'. cbn [set_groups set_seq groups c_group]. rewrite E4. cbn [olist].
    rewrite !app_nil_r, map_app. reflexivity. }
  assert (X : ext s s').
  { repeat split; try apply incl_refl. rewrite AG. apply incl_appl, incl_refl. }
  split; [|split; [repeat split; auto | exact X]].
  destruct I as [Ic Ir Ip Is Ie Ios Ioe]. constructor; auto.
  - intros id p n H. unfold has_group in *. rewrite AG in *. apply in_app_or in H as [H | H].
    + destruct (Ip _ _ _ H) as [A [B | (p' & n' & B)]]; split; auto.
      right. exists p', n'. apply in_or_app. auto.
    + destruct H as [H|[]]. injection H as <- <- <-. split; [lia | auto].
  - eapply Forall_impl; [|exact Is]. intros. eapply good_struct_ext; eauto.
  - eapply Forall_impl; [|exact Ie]. intros. eapply good_enum_ext; eauto.
Qed.

Lemma nth_number_fields : forall sid st fs f, In f (number_fields sid st fs) ->
  f_parent f = sid /\ st < f_id f /\ f_ref f = None /\
  exists n k o, In (n, k, o) fs /\ f_tpath f = [k] /\ f_kind f = k.
Proof.
  intros sid st fs f H. unfold number_fields in H. apply in_map_iff in H as ([k [[n kd] o]] & <- & H).
  apply in_combine_r in H. cbn [f_parent f_id f_ref f_tpath f_kind]. repeat split; [lia|].
  exists n, kd, o. auto.
Qed.

Lemma names_number_fields : forall sid st fs,
  map f_name (number_fields sid st fs) = map (fun p => fst (fst p)) fs.
Proof.
  intros sid st fs. unfold number_fields.
  assert (H : forall one k, map f_name (map (fun p : nat * (text * text * bool) =>
         let '(k, (name, kind, opt)) := p in
         mkField (st + k + one) sid name kind None [] false opt [kind])
      (combine (List.seq k (length fs)) fs)) = map (fun p => fst (fst p)) fs).
  { intros one. induction fs as [|[[n kd] o] fs IH]; intro k; [reflexivity|].
    cbn [length List.seq combine map f_name fst]. f_equal. apply IH. }
  apply H.
Qed.

Lemma service_inv : forall s name fs, inv s -> closed s -> field_spec_ok fs ->
  inv (add_service_struct s name fs) /\ closed (add_service_struct s name fs) /\
  ext s (add_service_struct s name fs).
Proof.
  intros s name fs I CL (FN & FP). rewrite service_eq.
  destruct (with_group_inv s I CL) as (I1 & C1 & X1).
  destruct (with_group_found s) as (g & G). rewrite G.
  set (t := with_group s) in *. clearbody t. clear I CL.
  pose proof (find_some _ _ G) as [G1 G2].
  apply andb_true_iff in G2 as [G2 G3]. apply teqb_eq in G2. apply Nat.eqb_eq in G3.
  destruct (with_struct_uniq t g name fs (inv_uniq t I1)) as [U1 U2].
  destruct C1 as (E1 & E2 & E3 & E4).
  set (s' := with_struct t g name fs) in *.
  assert (AG : map gkey (all_groups s') = map gkey (all_groups t)).
  { unfold all_groups, s', with_struct. cbn [set_structs set_groups set_seq groups c_group].
    rewrite !map_app, upd_keys. reflexivity. }
  assert (X : ext t s').
  { unfold s', with_struct. repeat split; try apply incl_refl.
    - cbn [set_structs structs]. apply incl_appl, incl_refl.
    - fold s'. change (incl (map gkey (all_groups t)) (map gkey (all_groups s'))). rewrite AG. apply incl_refl. }
  assert (GU : get_group t (g_id g) = Some g).
  { apply find_unique; auto. apply (NoDup_count_occ Nat.eq_dec). intro i.
    pose proof (I_cnt _ I1 i) as K. rewrite cnt_eq in K. lia. }
  assert (HG : has_group t (g_id g) 0 service_group).
  { pose proof (has_of_in _ _ G1) as H. rewrite G2, G3 in H. exact H. }
  assert (GP : 0 < g_id g) by (destruct (I_parent _ I1 _ _ _ HG) as [HG1 HG2]; lia).
  assert (PP : path_by_parent t (g_id g) = Ok [service_group]).
  { unfold path_by_parent. destruct (g_id g =? 0) eqn:Z; [apply Nat.eqb_eq in Z; lia|].
    rewrite GU, G3, G2. reflexivity. }
  split; [|split; [repeat split; auto | eapply ext_trans; eauto]].
  destruct I1 as [Ic Ir Ip Is Ie Ios Ioe]. constructor; auto.
  - intros id p n H. unfold has_group in *. rewrite AG in *. apply (Ip id p n). exact H.
  - unfold all_structs in *. unfold s', with_struct. cbn [set_structs set_groups set_seq structs c_struct].
    rewrite E1 in *. cbn [olist] in *. rewrite app_nil_r in *. apply Forall_snoc.
    + eapply Forall_impl; [|exact Is]. intros. eapply good_struct_ext; [|eassumption]. exact X.
    + rewrite PP. split; [|split]; cbn [s_fields s_parent s_path s_id].
      * rewrite names_number_fields. exact FN.
      * apply Forall_forall. intros f Hf. apply nth_number_fields in Hf as (A1 & A2 & A3 & n & k & o & A4 & A5 & A6).
        split; [exact A1|]. split; [cbn [s_id]; exact A2|]. split.
        -- left. exists k. rewrite Forall_forall in FP. specialize (FP _ A4). cbn [fst snd] in FP.
           rewrite A5, A6, A3. auto.
        -- rewrite A3. discriminate.
      * change [service_group] with ([] ++ [service_group]).
        eapply SP_group; [|constructor]. unfold has_group. 
        change (In (g_id g, 0, service_group) (map gkey (all_groups s'))). rewrite AG. exact HG.
  - eapply Forall_impl; [|exact Ie]. intros. eapply good_enum_ext; [|eassumption]. exact X.
  - intros x H. unfold s', with_struct in H. cbn [set_structs set_groups set_seq c_struct] in H. congruence.
  - intros x H. unfold s', with_struct in H. cbn [set_structs set_groups set_seq c_enum] in H. congruence.
Qed.

Definition services := list (text * list (text * text * bool)).
Definition add_services (s : store) (l : services) : store :=
  fold_left (fun s x => add_service_struct s (fst x) (snd x)) l s.

Lemma services_uniq : forall l s, uniq s -> uniq (add_services s l).
Proof.
  induction l as [|x l IH]; intros s U; [exact U|]. cbn [add_services fold_left].
  apply IH. apply service_uniq. exact U.
Qed.

Lemma services_inv : forall l s, inv s -> closed s -> Forall (fun x => field_spec_ok (snd x)) l ->
  inv (add_services s l) /\ closed (add_services s l) /\ ext s (add_services s l).
Proof.
  induction l as [|x l IH]; intros s I C0 F; [split; [exact I|]; split; [exact C0 | apply ext_refl]|].
  inversion F; subst. destruct (service_inv s (fst x) (snd x) I C0 H1) as (A & B & D).
  cbn [add_services fold_left]. destruct (IH _ A B H2) as (A' & B' & D').
  split; [exact A'|]. split; [exact B'|]. eapply ext_trans; eauto.
Qed.
