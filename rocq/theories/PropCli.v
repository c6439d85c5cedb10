(** The command line: existing files, unknown arguments, what success means, and
    the diagram (C42, C43, C71, C72). *)
From Coq Require Import String Ascii NArith List Arith Lia Bool.
From Verif Require Import Bytes ProtoModel WfModel ProtoProofs WfProofs PropProto PropWf.
From Verif Require Import RenderModel RenderProofs PropRender CliModel.
Import ListNotations.
Close Scope string_scope.
Open Scope list_scope.
Open Scope nat_scope.

(** ** How a command line is meant: read from left to right, an option with a
    value takes the next argument *)

Definition valued (a : text) : bool := existsb (fun o => is_key (file_keys o) a) file_opts.
Definition switch (a : text) : bool := is_key (help_keys ++ embedded_keys ++ overwrite_keys) a.

(** neither an option nor the value of one *)
Fixpoint strays (args : list text) : list text :=
  match args with
  | [] => []
  | a :: rest =>
    if valued a then match rest with [] => [] | _ :: rest => strays rest end
    else if switch a then strays rest else a :: strays rest
  end.
(** the value of the first option of a kind *)
Fixpoint given (o : fopt) (args : list text) : option text :=
  match args with
  | [] => None
  | a :: rest =>
    if valued a
    then match rest with [] => None | v :: rest => if is_key (file_keys o) a then Some v else given o rest end
    else given o rest
  end.
(** the options without value that are there *)
Fixpoint asked (ks : list text) (args : list text) : bool :=
  match args with
  | [] => false
  | a :: rest =>
    if valued a then match rest with [] => false | _ :: rest => asked ks rest end
    else is_key ks a || asked ks rest
  end.
(** no option stands where a value is expected *)
Fixpoint tidy (args : list text) : bool :=
  match args with
  | [] => true
  | a :: rest =>
    if valued a
    then match rest with [] => true | v :: rest => negb (valued v) && negb (switch v) && tidy rest end
    else tidy rest
  end.
(** no option twice *)
Definition once (args : list text) : Prop :=
  forall ks, In ks (help_keys :: embedded_keys :: overwrite_keys :: map file_keys file_opts) ->
  length (filter (is_key ks) args) <= 1.

Lemma tidy_ind : forall P : list text -> Prop,
  P [] -> (forall a, valued a = true -> P [a]) ->
  (forall a v rest, valued a = true -> valued v = false -> switch v = false -> tidy rest = true -> P rest -> P (a :: v :: rest)) ->
  (forall a rest, valued a = false -> tidy rest = true -> P rest -> P (a :: rest)) ->
  forall args, tidy args = true -> P args.
Proof.
  intros P P0 P1 P2 P3.
  assert (G : forall n args, length args <= n -> tidy args = true -> P args).
  { induction n as [|n IH]; intros [|a rest] L T; try exact P0; [cbn [length] in L; lia|].
    cbn [tidy] in T. destruct (valued a) eqn:V.
    - destruct rest as [|v rest]; [apply P1; exact V|]. apply andb_true_iff in T as [T T3]. apply andb_true_iff in T as [T1 T2].
      apply negb_true_iff in T1, T2. apply P2; try assumption. apply IH; [cbn [length] in L; lia | exact T3].
    - apply P3; try assumption. apply IH; [cbn [length] in L; lia | exact T]. }
  intros args T. exact (G _ args (le_n _) T).
Qed.

(** ** The cleaners, recursively *)

Lemma clean_flag_cons : forall ks a args, clean_flag ks (a :: args) = if is_key ks a then args else a :: clean_flag ks args.
Proof.
  intros ks a args. unfold clean_flag. cbn [position]. destruct (is_key ks a); [reflexivity|].
  destruct (position ks args); reflexivity.
Qed.
Lemma clean_value_cons : forall ks a args, clean_value ks (a :: args) =
  if is_key ks a then tl args else a :: clean_value ks args.
Proof.
  intros ks a args. unfold clean_value. cbn [position]. destruct (is_key ks a).
  - destruct args; reflexivity.
  - destruct (position ks args) as [i|]; [|reflexivity]. cbn [option_map].
    change (nth_error (a :: args) (S (S i))) with (nth_error args (S i)). destruct (nth_error args (S i)); reflexivity.
Qed.
Lemma value_of_cons : forall o a args, value_of o (a :: args) =
  if is_key (file_keys o) a then hd_error args else value_of o args.
Proof.
  intros o a args. unfold value_of. cbn [position]. destruct (is_key (file_keys o) a); [destruct args; reflexivity|].
  destruct (position (file_keys o) args); reflexivity.
Qed.

Lemma is_key_in : forall ks a, is_key ks a = true <-> In a ks.
Proof.
  intros ks a. unfold is_key. rewrite existsb_exists. split.
  - intros (x & X & E). apply teqb_eq in E. subst x. exact X.
  - intro H. exists a. split; [exact H | apply teqb_eq; reflexivity].
Qed.
Lemma key_valued : forall o a, is_key (file_keys o) a = true -> valued a = true.
Proof. intros o a H. unfold valued. apply existsb_exists. exists o. split; [destruct o; cbn; tauto | exact H]. Qed.
Lemma valued_not : forall o a, valued a = false -> is_key (file_keys o) a = false.
Proof. intros o a H. destruct (is_key (file_keys o) a) eqn:E; [rewrite (key_valued _ _ E) in H; discriminate | reflexivity]. Qed.
Definition switch_set (ks : list text) : Prop := In ks [help_keys; embedded_keys; overwrite_keys].
Lemma switch_key : forall ks a, switch_set ks -> is_key ks a = true -> switch a = true.
Proof.
  intros ks a S H. unfold switch. apply is_key_in. apply is_key_in in H. rewrite !in_app_iff.
  destruct S as [<-|[<-|[<-|[]]]]; tauto.
Qed.
(** the two kinds of options have no key in common *)
Lemma switch_not_valued : forall a, switch a = true -> valued a = false.
Proof.
  intros a H. apply is_key_in in H. cbn [help_keys embedded_keys overwrite_keys app map In] in H.
  repeat (destruct H as [<-|H]; [reflexivity|]). contradiction.
Qed.
(** nor have two options with a value *)
Lemma one_option : forall o o' a, is_key (file_keys o) a = true -> is_key (file_keys o') a = true -> o = o'.
Proof.
  intros o o' a H H'. apply is_key_in in H. destruct o, o'; try reflexivity; exfalso;
  cbn [file_keys map In] in H; repeat (destruct H as [<-|H]; [vm_compute in H'; discriminate H'|]); contradiction.
Qed.

Definition keeps (f : list text -> list text) : Prop := forall args, tidy args = true ->
  tidy (f args) = true /\ strays (f args) = strays args.

Lemma clean_flag_keeps : forall ks, switch_set ks -> keeps (clean_flag ks).
Proof.
  intros ks S. intros args. revert args. apply tidy_ind.
  - split; reflexivity.
  - intros a V. rewrite clean_flag_cons. destruct (is_key ks a) eqn:K.
    + apply (switch_key _ _ S), switch_not_valued in K. congruence.
    + cbn [clean_flag position tidy strays]. rewrite V. split; reflexivity.
  - intros a v rest V W X T (I & J). rewrite !clean_flag_cons.
    assert (is_key ks a = false) as ->.
    { destruct (is_key ks a) eqn:K; [|reflexivity]. apply (switch_key _ _ S), switch_not_valued in K. congruence. }
    assert (is_key ks v = false) as ->.
    { destruct (is_key ks v) eqn:K; [|reflexivity]. apply (switch_key _ _ S) in K. congruence. }
    cbn [tidy strays]. rewrite V, W, X, I, J. split; reflexivity.
  - intros a rest V T (I & J). rewrite clean_flag_cons. destruct (is_key ks a) eqn:K.
    + cbn [strays]. rewrite V, (switch_key _ _ S K). split; [exact T | reflexivity].
    + cbn [tidy strays]. rewrite V, I, J. split; reflexivity.
Qed.
Lemma clean_value_keeps : forall o, keeps (clean_value (file_keys o)).
Proof.
  intros o args. revert args. apply tidy_ind.
  - split; reflexivity.
  - intros a V. rewrite clean_value_cons. destruct (is_key (file_keys o) a) eqn:K.
    + cbn [tl tidy strays]. rewrite V. split; reflexivity.
    + cbn [clean_value position tidy strays]. rewrite V. split; reflexivity.
  - intros a v rest V W X T (I & J). rewrite !clean_value_cons. destruct (is_key (file_keys o) a) eqn:K.
    + cbn [tl strays]. rewrite V. split; [exact T | reflexivity].
    + rewrite (valued_not o v W). cbn [tidy strays]. rewrite V, W, X, I, J. split; reflexivity.
  - intros a rest V T (I & J). rewrite clean_value_cons, (valued_not o a V). cbn [tidy strays]. rewrite V, I, J. split; reflexivity.
Qed.

Lemma fold_keeps : forall l, keeps (fun args => fold_left (fun args o => clean_value (file_keys o) args) l args).
Proof.
  induction l as [|o l IH]; intros args T; [split; [exact T | reflexivity]|]. cbn [fold_left].
  destruct (clean_value_keeps o args T) as (A & B). destruct (IH _ A) as (C & D). split; [exact C | congruence].
Qed.
Lemma unknown_keeps : keeps unknown_args.
Proof.
  intros args T. unfold unknown_args.
  destruct (clean_flag_keeps help_keys (or_introl eq_refl) args T) as (A1 & B1).
  destruct (clean_flag_keeps embedded_keys (or_intror (or_introl eq_refl)) _ A1) as (A2 & B2).
  destruct (clean_flag_keeps overwrite_keys (or_intror (or_intror (or_introl eq_refl))) _ A2) as (A3 & B3).
  destruct (fold_keeps file_opts _ A3) as (A4 & B4). split; [exact A4 | congruence].
Qed.

Lemma strays_incl : forall args a, In a (strays args) -> In a args.
Proof.
  assert (G : forall n args a, length args <= n -> In a (strays args) -> In a args).
  { induction n as [|n IH]; intros [|b rest] a L H; try contradiction; [cbn [length] in L; lia|].
    cbn [strays] in H. cbn [length] in L. destruct (valued b).
    - destruct rest as [|v rest]; [contradiction|]. right; right. apply IH; [cbn [length] in L; lia | exact H].
    - destruct (switch b); [right; apply IH; [lia | exact H]|]. destruct H as [<-|H]; [left; reflexivity | right; apply IH; [lia | exact H]]. }
  intros args a. exact (G _ args a (le_n _)).
Qed.

(** *** an option that occurs once is gone *)
Lemma position_none : forall ks args, filter (is_key ks) args = [] <-> position ks args = None.
Proof.
  intros ks args. induction args as [|a args IH]; [split; reflexivity|]. cbn [filter position].
  destruct (is_key ks a); [split; discriminate|]. rewrite IH. destruct (position ks args); split; intro H; try discriminate H; reflexivity.
Qed.
Definition count (ks args : list text) : nat := length (filter (is_key ks) args).
Lemma count_flag : forall ks ks' args, count ks' (clean_flag ks args) <= count ks' args.
Proof.
  intros ks ks' args. unfold count. induction args as [|a args IH]; [reflexivity|]. rewrite clean_flag_cons.
  destruct (is_key ks a); cbn [filter]; destruct (is_key ks' a); cbn [length]; lia.
Qed.
Lemma count_tl : forall ks args, count ks (tl args) <= count ks args.
Proof. intros ks [|a args]; [reflexivity|]. unfold count. cbn [tl filter]. destruct (is_key ks a); cbn [length]; lia. Qed.
Lemma count_value : forall ks ks' args, count ks' (clean_value ks args) <= count ks' args.
Proof.
  intros ks ks' args. induction args as [|a args IH]; [reflexivity|]. rewrite clean_value_cons. unfold count in *.
  destruct (is_key ks a); cbn [filter].
  - pose proof (count_tl ks' args) as K. unfold count in K. destruct (is_key ks' a); cbn [length]; lia.
  - destruct (is_key ks' a); cbn [length]; lia.
Qed.
Lemma count_flag_own : forall ks args, count ks args <= 1 -> count ks (clean_flag ks args) = 0.
Proof.
  intros ks args. unfold count. induction args as [|a args IH]; [reflexivity|]. rewrite clean_flag_cons. cbn [filter].
  destruct (is_key ks a) eqn:K; cbn [length].
  - intro H. lia.
  - intro H. cbn [filter]. rewrite K. apply IH. exact H.
Qed.
Lemma count_value_own : forall ks args, count ks args <= 1 -> count ks (clean_value ks args) = 0.
Proof.
  intros ks args. induction args as [|a args IH]; [reflexivity|]. rewrite clean_value_cons. unfold count in *. cbn [filter].
  destruct (is_key ks a) eqn:K; cbn [length].
  - intro H. pose proof (count_tl ks args) as L. unfold count in L. lia.
  - intro H. cbn [filter]. rewrite K. apply IH. exact H.
Qed.
Lemma count_fold : forall l ks args, count ks (fold_left (fun args o => clean_value (file_keys o) args) l args) <= count ks args.
Proof.
  induction l as [|o l IH]; intros ks args; [reflexivity|]. cbn [fold_left]. etransitivity; [apply IH | apply count_value].
Qed.
Lemma count_fold_own : forall l o args, In o l -> count (file_keys o) args <= 1 ->
  count (file_keys o) (fold_left (fun args o => clean_value (file_keys o) args) l args) = 0.
Proof.
  induction l as [|o' l IH]; intros o args I H; [contradiction|]. cbn [fold_left]. destruct I as [->|I].
  - apply Nat.le_0_r. rewrite <- (count_value_own (file_keys o) args H). apply count_fold.
  - apply IH; [exact I|]. etransitivity; [apply count_value | exact H].
Qed.
Lemma unknown_count : forall ks args, once args -> In ks (help_keys :: embedded_keys :: overwrite_keys :: map file_keys file_opts) ->
  count ks (unknown_args args) = 0.
Proof.
  intros ks args O I. pose proof (O ks I) as L. fold (count ks args) in L. unfold unknown_args. apply Nat.le_0_r.
  destruct I as [<-|[<-|[<-|I]]].
  - rewrite <- (count_flag_own _ _ L). etransitivity; [apply count_fold|]. etransitivity; [apply count_flag|]. apply count_flag.
  - assert (L1 : count embedded_keys (clean_flag help_keys args) <= 1) by (etransitivity; [apply count_flag | exact L]).
    rewrite <- (count_flag_own _ _ L1). etransitivity; [apply count_fold|]. apply count_flag.
  - assert (L1 : count overwrite_keys (clean_flag embedded_keys (clean_flag help_keys args)) <= 1)
      by (etransitivity; [apply count_flag | etransitivity; [apply count_flag | exact L]]).
    rewrite <- (count_flag_own _ _ L1). apply count_fold.
  - apply in_map_iff in I as (o & <- & I). rewrite count_fold_own; [lia | exact I|].
    do 3 (etransitivity; [apply count_flag|]). exact L.
Qed.
Lemma no_keys_strays : forall args, (forall a, In a args -> valued a = false /\ switch a = false) -> strays args = args.
Proof.
  induction args as [|a args IH]; intro H; [reflexivity|]. cbn [strays]. destruct (H a (or_introl eq_refl)) as [-> ->].
  rewrite IH; [reflexivity|]. intros b B. apply H. right. exact B.
Qed.
Lemma count_zero : forall ks args a, count ks args = 0 -> In a args -> is_key ks a = false.
Proof.
  intros ks args a H I. destruct (is_key ks a) eqn:K; [|reflexivity]. unfold count in H. apply length_zero_iff_nil in H.
  assert (In a (filter (is_key ks) args)) as X by (apply filter_In; split; assumption). rewrite H in X. contradiction.
Qed.

(** *** values and switches *)
Lemma value_given : forall o args, tidy args = true -> value_of o args = given o args.
Proof.
  intros o args. revert args. apply tidy_ind.
  - reflexivity.
  - intros a V. rewrite value_of_cons. cbn [given hd_error]. rewrite V. destruct (is_key (file_keys o) a); reflexivity.
  - intros a v rest V W X T I. rewrite !value_of_cons. cbn [given hd_error]. rewrite V, (valued_not o v W).
    destruct (is_key (file_keys o) a); [reflexivity | exact I].
  - intros a rest V T I. rewrite value_of_cons. cbn [given]. rewrite V, (valued_not o a V). exact I.
Qed.
Lemma flag_asked : forall ks args, switch_set ks -> tidy args = true -> flag ks args = asked ks args.
Proof.
  intros ks args S. revert args. apply tidy_ind.
  - reflexivity.
  - intros a V. cbn [flag existsb asked]. rewrite V. destruct (is_key ks a) eqn:K; [|reflexivity].
    apply (switch_key _ _ S), switch_not_valued in K. congruence.
  - intros a v rest V W X T I. cbn [flag existsb asked]. rewrite V. change (existsb (is_key ks) rest) with (flag ks rest).
    assert (is_key ks a = false) as ->.
    { destruct (is_key ks a) eqn:K; [|reflexivity]. apply (switch_key _ _ S), switch_not_valued in K. congruence. }
    assert (is_key ks v = false) as ->.
    { destruct (is_key ks v) eqn:K; [|reflexivity]. apply (switch_key _ _ S) in K. congruence. }
    exact I.
  - intros a rest V T I. cbn [flag existsb asked]. rewrite V. change (existsb (is_key ks) rest) with (flag ks rest). rewrite I. reflexivity.
Qed.

(** ** What the steps do to the disk *)

Definition chosen (locate : text -> fpath) (o : fopt) (args : list text) : option fpath :=
  option_map locate (value_of o args).

Lemma create_dir_files : forall d p d', create_dir d p = Some d' -> files d' = files d.
Proof. intros d p d' H. unfold create_dir in H. destruct (folders d (removelast p)); [injection H as <-; reflexivity | discriminate]. Qed.
Lemma set_folder_spec : forall d o v d' x es, set_folder d o v = (d', x, es) ->
  files d' = files d /\ (x = v \/ (x = None /\ es <> [])) /\ (es = [] -> x = v).
Proof.
  intros d o [p|] d' x es H; cbn [set_folder] in H.
  - destruct (present d p); [injection H as <- <- <-; tauto|]. destruct (create_dir d p) as [d1|] eqn:C.
    + injection H as <- <- <-. split; [exact (create_dir_files _ _ _ C)|]. tauto.
    + injection H as <- <- <-. split; [reflexivity|]. split; [right; split; [reflexivity | discriminate] | discriminate].
  - injection H as <- <- <-. tauto.
Qed.
Lemma set_file_spec : forall d ow o v x es, set_file d ow o v = (x, es) ->
  (x = None \/ x = v) /\ (es = [] -> x = v) /\
  (forall p, x = Some p -> ow = true \/ files d p = None) /\
  (forall p, v = Some p -> ow = false -> files d p <> None -> In (CExists o) es).
Proof.
  intros d ow o [p|] x es H; cbn [set_file] in H.
  - destruct (negb ow && present d p) eqn:E; injection H as <- <-.
    + split; [left; reflexivity|]. split; [discriminate|]. split; [discriminate|]. intros q Q O F. left. reflexivity.
    + split; [right; reflexivity|]. split; [reflexivity|]. unfold present in E. split.
      * intros q Q. injection Q as <-. destruct ow; [left; reflexivity|]. right. cbn [negb andb] in E.
        apply orb_false_iff in E as [E _]. destruct (files d p); [discriminate | reflexivity].
      * intros q Q -> F. injection Q as <-. cbn [negb andb] in E. destruct (files d p); [discriminate E | contradiction].
  - injection H as <- <-. split; [left; reflexivity|]. split; [reflexivity|]. split; discriminate.
Qed.
Lemma set_source_spec : forall d o v x es, set_source d o v = (x, es) -> (x = None \/ x = v) /\ (es = [] -> x = v).
Proof.
  intros d o [p|] x es H; cbn [set_source] in H.
  - destruct (present d p); injection H as <- <-; split; try tauto. discriminate.
  - injection H as <- <-. tauto.
Qed.

Record configured (locate : text -> fpath) (args : list text) (d : disk) (o : options) (d1 : disk) : Prop := mkConfigured {
  cg_files : files d1 = files d;
  cg_sub : forall (g : options -> option fpath) k,
    In (g, k) [(o_src, OSource); (o_workflow, OWorkflow); (o_rust, ORust); (o_ts, OTypeScript);
               (o_consumer, OConsumer); (o_producer, OProducer); (o_uml, OPuml)] ->
    g o = None \/ g o = chosen locate k args;
  cg_all : o_errs o = [] -> forall (g : options -> option fpath) k,
    In (g, k) [(o_src, OSource); (o_workflow, OWorkflow); (o_rust, ORust); (o_ts, OTypeScript);
               (o_consumer, OConsumer); (o_producer, OProducer); (o_uml, OPuml)] ->
    g o = chosen locate k args;
  cg_new : flag overwrite_keys args = false -> forall p, o_rust o = Some p \/ o_ts o = Some p \/ o_uml o = Some p -> files d p = None;
  cg_exists : flag overwrite_keys args = false -> forall k p, In k [ORust; OTypeScript; OPuml] ->
    chosen locate k args = Some p -> files d p <> None -> In (CExists k) (o_errs o)
}.
Lemma configure_spec : forall locate args d o d1, configure locate args d = (o, d1) -> configured locate args d o d1.
Proof.
  intros locate args d o d1 H. unfold configure in H. cbv zeta in H.
  fold (chosen locate OSource args) (chosen locate OWorkflow args) (chosen locate ORust args) (chosen locate OTypeScript args)
    (chosen locate OConsumer args) (chosen locate OProducer args) (chosen locate OPuml args) in H.
  destruct (set_source d OSource (chosen locate OSource args)) as [src e1] eqn:S1.
  destruct (set_source d OWorkflow (chosen locate OWorkflow args)) as [wf e2] eqn:S2.
  destruct (set_file d (flag overwrite_keys args) ORust (chosen locate ORust args)) as [rs e3] eqn:S3.
  destruct (set_file d (flag overwrite_keys args) OTypeScript (chosen locate OTypeScript args)) as [ts e4] eqn:S4.
  destruct (set_folder d OConsumer (chosen locate OConsumer args)) as [[d2 cd] e5] eqn:S5.
  destruct (set_folder d2 OProducer (chosen locate OProducer args)) as [[d3 pd] e6] eqn:S6.
  destruct (set_file d3 (flag overwrite_keys args) OPuml (chosen locate OPuml args)) as [uml e7] eqn:S7.
  injection H as <- <-.
  apply set_source_spec in S1 as (A1 & B1). apply set_source_spec in S2 as (A2 & B2).
  apply set_file_spec in S3 as (A3 & B3 & C3 & D3). apply set_file_spec in S4 as (A4 & B4 & C4 & D4).
  apply set_folder_spec in S5 as (F5 & A5 & B5). apply set_folder_spec in S6 as (F6 & A6 & B6).
  apply set_file_spec in S7 as (A7 & B7 & C7 & D7). rewrite F6, F5 in C7, D7.
  constructor.
  - congruence.
  - intros g k I. cbn [In] in I.
    destruct I as [I|[I|[I|[I|[I|[I|[I|[]]]]]]]]; injection I as <- <-; cbn [o_src o_workflow o_rust o_ts o_consumer o_producer o_uml];
      first [assumption | destruct A5 as [K|[K _]]; [right | left]; exact K | destruct A6 as [K|[K _]]; [right | left]; exact K].
  - cbn [o_errs]. intros E. apply app_eq_nil in E as (E1 & E). apply app_eq_nil in E as (E2 & E). apply app_eq_nil in E as (E3 & E).
    apply app_eq_nil in E as (E4 & E). apply app_eq_nil in E as (E5 & E). apply app_eq_nil in E as (E6 & E7).
    intros g k I. cbn [In] in I.
    destruct I as [I|[I|[I|[I|[I|[I|[I|[]]]]]]]]; injection I as <- <-; cbn [o_src o_workflow o_rust o_ts o_consumer o_producer o_uml]; auto.
  - intros O p. cbn [o_rust o_ts o_uml]. intros [P|[P|P]].
    + destruct (C3 _ P) as [K|K]; [congruence | exact K].
    + destruct (C4 _ P) as [K|K]; [congruence | exact K].
    + destruct (C7 _ P) as [K|K]; [congruence | exact K].
  - intros O k p K P F. cbn [o_errs]. rewrite !in_app_iff. cbn [In] in K. destruct K as [<-|[<-|[<-|[]]]].
    + right; right; left. exact (D3 p P O F).
    + right; right; right; left. exact (D4 p P O F).
    + do 6 right. exact (D7 p P O F).
Qed.

(** existing files survive [put_file] unless it may overwrite *)
Lemma put_file_cases : forall ow p c d d' e, put_file ow p c d = (d', e) ->
  (d' = d /\ exists x, e = Done (Some x)) \/
  (files d' = upd (files d) p c /\ folders d' = folders d /\ e = Done None /\ (ow = true \/ files d p = None)).
Proof.
  intros ow p c d d' e H. unfold put_file in H. destruct (present d p && negb ow) eqn:P.
  - injection H as <- <-. left. split; [reflexivity | eexists; reflexivity].
  - destruct (folders d p && negb (is_some (files d p))) eqn:Q.
    + injection H as <- <-. left. split; [reflexivity | eexists; reflexivity].
    + injection H as <- <-. right. cbn [files folders]. split; [reflexivity|]. split; [reflexivity|]. split; [reflexivity|].
      destruct ow; [left; reflexivity | right]. unfold present in P. rewrite andb_true_r in P. apply orb_false_iff in P as [P _].
      destruct (files d p); [discriminate | reflexivity].
Qed.
Lemma upd_other : forall (f : fs) p q c, p <> q -> upd f p c q = f q.
Proof.
  intros f p q c N. unfold upd. destruct (peqb p q) eqn:E; [|reflexivity]. apply peqb_iff in E. contradiction.
Qed.
Lemma put_opt_kept : forall o c d d' e q x, put_opt false o c d = (d', e) -> files d q = Some x -> files d' q = Some x.
Proof.
  intros [p|] c d d' e q x H Q; cbn [put_opt] in H; [|injection H as <- <-; exact Q].
  apply put_file_cases in H as [(-> & _)|(F & _ & _ & [K|K])]; [exact Q | discriminate|].
  rewrite F, upd_other; [exact Q | congruence].
Qed.
Lemma codes_kept : forall em o p d d' e q x, codes false em o p d = (d', e) -> files d q = Some x -> files d' q = Some x.
Proof.
  intros em o p d d' e q x H Q. unfold codes in H.
  destruct (put_opt false (o_rust o) (DCode TRust em p) d) as [d1 e1] eqn:P. pose proof (put_opt_kept _ _ _ _ _ _ _ P Q) as Q1.
  unfold andthen in H. destruct e1 as [[x1|]| | |]; try (injection H as <- <-; exact Q1). exact (put_opt_kept _ _ _ _ _ _ _ H Q1).
Qed.

(** ** C42 *)

(** a file of the generated project, or the manifest above it *)
Definition in_project (locate : text -> fpath) (args : list text) (q : fpath) : Prop :=
  given OWorkflow args <> None /\
  exists (pr : bool) (t : target) v base, given (if pr then OProducer else OConsumer) args = Some v /\
    (base = locate v \/ base = locate v ++ [target_dir t]) /\
    ((exists rel, q = base ++ rel /\ own_file pr t rel) \/ exists k, q = firstn k base ++ [manifest_of t]).

Lemma chosen_given : forall locate o args, tidy args = true -> chosen locate o args = option_map locate (given o args).
Proof. intros locate o args T. unfold chosen. rewrite (value_given o args T). reflexivity. Qed.

Lemma action_kept : forall fuel content locate args d o d1 em d2 e q c, tidy args = true ->
  configured locate args d o d1 -> flag overwrite_keys args = false ->
  action fuel content false em o d1 = (d2, e) -> files d q = Some c -> files d2 q <> Some c ->
  in_project locate args q.
Proof.
  intros fuel content locate args d o d1 em d2 e q c T G O A Q N.
  assert (Q1 : files d1 q = Some c) by (rewrite (cg_files _ _ _ _ _ G); exact Q).
  unfold action in A. destruct (o_src o) as [src|] eqn:SRC; [|injection A as <- <-; contradiction].
  destruct (read content d1 src) as [t|]; [|injection A as <- <-; contradiction].
  destruct (parse t) as [p| | |]; try (injection A as <- <-; contradiction).
  destruct (negb (is_some (o_workflow o)) && is_some (o_uml o)); [injection A as <- <-; contradiction|].
  destruct (o_workflow o) as [wf|] eqn:WF; [|exfalso; apply N; exact (codes_kept _ _ _ _ _ _ _ _ A Q1)].
  destruct (read content d1 wf) as [w|]; [|injection A as <- <-; contradiction].
  destruct (wparse fuel w p) as [s p'| | |]; try (injection A as <- <-; contradiction).
  destruct (project o s p' d1) as [d3 e3] eqn:PR.
  assert (N3 : files d3 q <> Some c).
  { intro K. apply N. unfold andthen in A. destruct e3 as [[x|]| | |]; try (injection A as <- <-; exact K).
    exact (codes_kept _ _ _ _ _ _ _ _ A K). }
  unfold project in PR. destruct (o_uml o) as [u|] eqn:U.
  - exfalso. apply N3. destruct (puml s) as [x| |]; [|injection PR as <- <-; exact Q1 | injection PR as <- <-; exact Q1].
    apply put_file_cases in PR as [(-> & _)|(F & _)]; [exact Q1|]. rewrite F, upd_other; [exact Q1|].
    pose proof (cg_new _ _ _ _ _ G O u (or_intror (or_intror U))). congruence.
  - destruct (render (o_consumer o) (o_producer o) s p' (files d1)) as [f r] eqn:R.
    assert (D3 : files d3 = f) by (destruct r; injection PR as <- <-; reflexivity). rewrite D3, <- Q1 in N3.
    destruct (C63_nothing_else_touched _ _ _ _ _ _ _ q R N3) as (cf & pr & tg & base & _ & (_ & dd & DD & B) & E).
    split.
    + destruct (cg_sub _ _ _ _ _ G o_workflow OWorkflow) as [K|K]; [cbn [In]; tauto | congruence|].
      rewrite WF, (chosen_given _ _ _ T) in K. destruct (given OWorkflow args); discriminate.
    + exists pr, tg.
      assert (V : exists v, given (if pr then OProducer else OConsumer) args = Some v /\ locate v = dd).
      { destruct pr.
        - destruct (cg_sub _ _ _ _ _ G o_producer OProducer) as [K|K]; [cbn [In]; tauto | congruence|].
          rewrite DD, (chosen_given _ _ _ T) in K. destruct (given OProducer args) as [v|]; [|discriminate].
          injection K as ->. exists v. split; reflexivity.
        - destruct (cg_sub _ _ _ _ _ G o_consumer OConsumer) as [K|K]; [cbn [In]; tauto | congruence|].
          rewrite DD, (chosen_given _ _ _ T) in K. destruct (given OConsumer args) as [v|]; [|discriminate].
          injection K as ->. exists v. split; reflexivity. }
      destruct V as (v & V1 & V2). exists v, base. split; [exact V1|]. split; [|exact E]. rewrite V2, B.
      destruct (1 <? length (if pr then cf_producer cf else cf_consumer cf)); [right | left]; reflexivity.
Qed.

Theorem C42_files_kept_partial : forall fuel content locate args d q c, tidy args = true ->
  asked overwrite_keys args = false -> files d q = Some c ->
  files (r_disk (cli fuel content locate args d)) q <> Some c -> in_project locate args q.
Proof.
  intros fuel content locate args d q c T O Q N.
  rewrite <- (flag_asked overwrite_keys args (or_intror (or_intror (or_introl eq_refl))) T) in O.
  unfold cli in N. destruct (configure locate args d) as [o d1] eqn:C. apply configure_spec in C.
  pose proof (cg_files _ _ _ _ _ C) as F.
  destruct (unknown_args args) as [|u us]; [|exfalso; apply N; cbn [r_disk]; rewrite F; exact Q].
  destruct (negb (flag help_keys args) && nonempty (o_errs o)); [exfalso; apply N; cbn [r_disk]; rewrite F; exact Q|].
  rewrite O in N.
  destruct (action fuel content false (flag embedded_keys args) o d1) as [d2 e] eqn:A.
  apply (action_kept _ _ _ _ _ _ _ _ _ _ _ _ T C O A Q). destruct e; exact N.
Qed.
Print Assumptions C42_files_kept_partial.

(** a destination that is there already: nothing at all is generated *)
Theorem C42_destination_kept_partial : forall fuel content locate args d k v, tidy args = true ->
  asked overwrite_keys args = false -> asked help_keys args = false ->
  In k [ORust; OTypeScript; OPuml] -> given k args = Some v -> files d (locate v) <> None ->
  let r := cli fuel content locate args d in
  files (r_disk r) = files d /\ r_code r = Some 1 /\ (r_unknown r <> [] \/ In (CExists k) (r_config r)).
Proof.
  intros fuel content locate args d k v T O H K V F r.
  rewrite <- (flag_asked overwrite_keys args (or_intror (or_intror (or_introl eq_refl))) T) in O.
  rewrite <- (flag_asked help_keys args (or_introl eq_refl) T) in H.
  unfold r, cli. destruct (configure locate args d) as [o d1] eqn:C. apply configure_spec in C.
  assert (E : In (CExists k) (o_errs o)).
  { apply (cg_exists _ _ _ _ _ C O k (locate v) K); [|exact F]. rewrite (chosen_given _ _ _ T), V. reflexivity. }
  pose proof (cg_files _ _ _ _ _ C) as FF.
  destruct (unknown_args args) as [|u us].
  - rewrite H. destruct (o_errs o) as [|x l]; [contradiction|]. cbn [negb nonempty andb r_disk r_code r_unknown r_config]. tauto.
  - cbn [r_disk r_code r_unknown r_config]. split; [exact FF|]. split; [reflexivity|]. left. discriminate.
Qed.
Print Assumptions C42_destination_kept_partial.

(** ** C43 *)

(** whatever is reported as unknown: nothing is generated *)
Theorem C43_reported_stops : forall fuel content locate args d, unknown_args args <> [] ->
  let r := cli fuel content locate args d in
  r_unknown r = unknown_args args /\ r_code r = Some 1 /\ files (r_disk r) = files d.
Proof.
  intros fuel content locate args d U r. unfold r, cli. destruct (configure locate args d) as [o d1] eqn:C.
  apply configure_spec in C. destruct (unknown_args args) as [|u us]; [contradiction|].
  cbn [r_unknown r_code r_disk]. split; [reflexivity|]. split; [reflexivity | exact (cg_files _ _ _ _ _ C)].
Qed.
Print Assumptions C43_reported_stops.

Theorem C43_strays_reported_partial : forall fuel content locate args d a, tidy args = true -> In a (strays args) ->
  let r := cli fuel content locate args d in
  In a (r_unknown r) /\ r_code r = Some 1 /\ files (r_disk r) = files d.
Proof.
  intros fuel content locate args d a T A r. destruct (unknown_keeps args T) as (_ & S).
  assert (I : In a (unknown_args args)) by (apply strays_incl; rewrite S; exact A).
  destruct (C43_reported_stops fuel content locate args d) as (U & R); [intro K; rewrite K in I; contradiction|].
  split; [|exact R]. unfold r. rewrite U. exact I.
Qed.
Print Assumptions C43_strays_reported_partial.

(** nothing else is reported, if every option is given once *)
Theorem C43_only_strays_partial : forall args, tidy args = true -> once args -> unknown_args args = strays args.
Proof.
  intros args T O. destruct (unknown_keeps args T) as (_ & <-). symmetry. apply no_keys_strays.
  assert (Z : forall ks a, In ks (help_keys :: embedded_keys :: overwrite_keys :: map file_keys file_opts) ->
              In a (unknown_args args) -> is_key ks a = false).
  { intros ks a K A. exact (count_zero ks _ a (unknown_count ks args O K) A). }
  intros a A. split.
  - unfold valued. destruct (existsb (fun o => is_key (file_keys o) a) file_opts) eqn:E; [|reflexivity].
    apply existsb_exists in E as (o & I & K). rewrite (Z (file_keys o) a) in K; [discriminate | | exact A].
    do 3 right. apply in_map. exact I.
  - unfold switch. destruct (is_key (help_keys ++ embedded_keys ++ overwrite_keys) a) eqn:E; [|reflexivity].
    apply is_key_in in E. rewrite !in_app_iff in E. exfalso.
    destruct E as [E|[E|E]]; apply is_key_in in E.
    + rewrite (Z help_keys a) in E; [discriminate | cbn [In]; tauto | exact A].
    + rewrite (Z embedded_keys a) in E; [discriminate | cbn [In]; tauto | exact A].
    + rewrite (Z overwrite_keys a) in E; [discriminate | cbn [In]; tauto | exact A].
Qed.
Print Assumptions C43_only_strays_partial.

(** ** A workspace for the examples *)

Fixpoint split_path (t : text) : fpath :=
  match t with
  | [] => [[]]
  | c :: t =>
    let r := split_path t in
    if Ascii.eqb c "/" then [] :: r
    else match r with w :: ws => (c :: w) :: ws | [] => [[c]] end
  end.
Definition ex_content (c : doc) : option text :=
  match c with
  | DUser 10 => Some chat_protocol
  | DUser 11 => Some chat_workflow
  | DUser 12 => Some (txt "struct { }")
  | DUser 13 => Some (txt "Users.Request")
  | _ => Some []
  end.
Definition ex_disk : disk :=
  mkDisk (upd (upd (upd (upd (upd (upd w_files [txt "chat.prot"] (DUser 10)) [txt "chat.workflow"] (DUser 11))
            [txt "old.rs"] (DUser 3)) [txt "-o"] (DUser 10)) [txt "bad.prot"] (DUser 12)) [txt "endless.workflow"] (DUser 13))
         (fun q => existsb (peqb q) [[]; [txt "w"]; w_client; w_server]).

(** the whole chat project and the protocol next to it; the user's implementation
    and the other sources stay *)
Definition ex_args : list string :=
  ["-s"; "chat.prot"; "-wf"; "chat.workflow"; "-cd"; "w/client"; "-pd"; "w/server"; "-ts"; "new.ts"]%string.
Example C42_example : let r := cli 5000 ex_content split_path (map txt ex_args) ex_disk in
  tidy (map txt ex_args) = true /\ asked overwrite_keys (map txt ex_args) = false /\
  r_code r = Some 0 /\ r_error r = None /\
  files (r_disk r) [txt "old.rs"] = Some (DUser 3) /\
  files (r_disk r) (w_server ++ [txt "responses"; txt "users_request.rs"]) = Some (DUser 2) /\
  files (r_disk r) (w_server ++ [txt "mod.rs"]) <> None /\
  files ex_disk w_manifest = Some (DManifest 7 [(txt "serde", txt "1.0"); (txt "log", txt "0.3")]) /\
  files (r_disk r) w_manifest <> Some (DManifest 7 [(txt "serde", txt "1.0"); (txt "log", txt "0.3")]) /\
  in_project split_path (map txt ex_args) w_manifest.
Proof.
  cbv zeta. split; [vm_compute; reflexivity|]. split; [vm_compute; reflexivity|]. split; [vm_compute; reflexivity|].
  split; [vm_compute; reflexivity|]. split; [vm_compute; reflexivity|]. split; [vm_compute; reflexivity|].
  split; [vm_compute; discriminate|]. split; [vm_compute; reflexivity|].
  match goal with |- ?P /\ _ => assert (K : P) by (vm_compute; discriminate) end.
  split; [exact K|]. refine (C42_files_kept_partial _ _ _ _ _ _ _ _ _ _ K); vm_compute; reflexivity.
Qed.
(** without [-o] an existing file stops everything *)
Example C42_stops_example :
  let args := map txt ["-s"; "chat.prot"; "-wf"; "chat.workflow"; "-cd"; "w/client"; "-pd"; "w/server"; "-rs"; "old.rs"]%string in
  let r := cli 5000 ex_content split_path args ex_disk in
  files (r_disk r) = files ex_disk /\ r_code r = Some 1 /\ r_config r = [CExists ORust].
Proof.
  intros args r. destruct (C42_destination_kept_partial 5000 ex_content split_path args ex_disk ORust (txt "old.rs")) as (A & B & _);
    [vm_compute; reflexivity | vm_compute; reflexivity | vm_compute; reflexivity | left; reflexivity | vm_compute; reflexivity |
     vm_compute; discriminate |].
  split; [exact A|]. split; [exact B|]. vm_compute. reflexivity.
Qed.

(** with [--help] the error is passed over: the destination stays, everything
    else is generated, and nothing tells that it is missing *)
Theorem C42_help_refuted : exists fuel content locate args d v q,
  tidy args = true /\ asked overwrite_keys args = false /\ given ORust args = Some v /\ files d (locate v) <> None /\
  let r := cli fuel content locate args d in
  r_code r = Some 0 /\ r_config r = [] /\ r_error r = None /\ files (r_disk r) (locate v) = files d (locate v) /\
  files d q = None /\ files (r_disk r) q <> None.
Proof.
  exists 5000, ex_content, split_path,
    (map txt ["-h"; "-s"; "chat.prot"; "-rs"; "old.rs"; "-ts"; "new.ts"]%string), ex_disk, (txt "old.rs"), [txt "new.ts"].
  split; [vm_compute; reflexivity|]. split; [vm_compute; reflexivity|]. split; [vm_compute; reflexivity|].
  split; [vm_compute; discriminate|]. cbv zeta. split; [vm_compute; reflexivity|]. split; [vm_compute; reflexivity|].
  split; [vm_compute; reflexivity|]. split; [vm_compute; reflexivity|]. split; [vm_compute; reflexivity | vm_compute; discriminate].
Qed.
Print Assumptions C42_help_refuted.

(** so it is with a diagram; the project is generated instead, over existing files *)
Theorem C42_help_diagram_refuted : exists fuel content locate args d v q,
  tidy args = true /\ asked overwrite_keys args = false /\ given OPuml args = Some v /\ files d (locate v) <> None /\
  let r := cli fuel content locate args d in
  r_code r = Some 0 /\ r_error r = None /\ files d q <> None /\ files (r_disk r) q <> files d q.
Proof.
  exists 5000, ex_content, split_path,
    (map txt ["-h"; "-s"; "chat.prot"; "-wf"; "chat.workflow"; "-cd"; "w/client"; "-pd"; "w/server"; "-d"; "old.rs"]%string),
    ex_disk, (txt "old.rs"), w_manifest.
  split; [vm_compute; reflexivity|]. split; [vm_compute; reflexivity|]. split; [vm_compute; reflexivity|].
  split; [vm_compute; discriminate|]. cbv zeta. split; [vm_compute; reflexivity|]. split; [vm_compute; reflexivity|].
  split; vm_compute; discriminate.
Qed.
Print Assumptions C42_help_diagram_refuted.

(** a destination named [-rs] inside the project is replaced although it was there
    before ([--help] again) *)
Theorem C42_help_replaced_refuted : exists fuel content locate args d v,
  tidy args = true /\ asked overwrite_keys args = false /\ given ORust args = Some v /\ files d (locate v) <> None /\
  let r := cli fuel content locate args d in
  r_code r = Some 0 /\ r_error r = None /\ files (r_disk r) (locate v) <> files d (locate v).
Proof.
  exists 5000, ex_content, split_path,
    (map txt ["-h"; "-s"; "chat.prot"; "-wf"; "chat.workflow"; "-cd"; "w/client"; "-pd"; "w/server"; "-rs"; "w/server/implementation/protocol/mod.rs"]%string),
    (mkDisk (upd (files ex_disk) (w_server ++ map txt ["implementation"; "protocol"; "mod.rs"]%string) (DUser 4)) (folders ex_disk)),
    (txt "w/server/implementation/protocol/mod.rs").
  split; [vm_compute; reflexivity|]. split; [vm_compute; reflexivity|]. split; [vm_compute; reflexivity|].
  split; [vm_compute; discriminate|]. cbv zeta. split; [vm_compute; reflexivity|]. split; [vm_compute; reflexivity|].
  vm_compute. discriminate.
Qed.
Print Assumptions C42_help_replaced_refuted.

(** a source file called [-o] is taken for the option as well *)
Theorem C42_value_refuted : exists fuel content locate args d v,
  asked overwrite_keys args = false /\ given ORust args = Some v /\ files d (locate v) <> None /\
  let r := cli fuel content locate args d in
  r_code r = Some 0 /\ r_error r = None /\ files (r_disk r) (locate v) <> files d (locate v).
Proof.
  exists 5000, ex_content, split_path, (map txt ["-rs"; "old.rs"; "-s"; "-o"]%string), ex_disk, (txt "old.rs").
  split; [vm_compute; reflexivity|]. split; [vm_compute; reflexivity|]. split; [vm_compute; discriminate|].
  cbv zeta. split; [vm_compute; reflexivity|]. split; [vm_compute; reflexivity|]. vm_compute. discriminate.
Qed.
Print Assumptions C42_value_refuted.

(** ** C43, examples and refutations *)

Example C43_example :
  let args := map txt ["-s"; "chat.prot"; "--dest"; "old.rs"; "-o"]%string in
  tidy args = true /\ once args /\ strays args = map txt ["--dest"; "old.rs"]%string /\
  r_unknown (cli 5000 ex_content split_path args ex_disk) = strays args.
Proof.
  split; [vm_compute; reflexivity|]. split; [|split; vm_compute; reflexivity].
  intros ks K. cbn [In map file_opts] in K.
  repeat (destruct K as [<-|K]; [vm_compute; lia|]). contradiction.
Qed.

(** an option in the place of a value makes the program lose the argument behind it *)
Theorem C43_swallowed_refuted : exists fuel content locate args d a,
  In a (strays args) /\ let r := cli fuel content locate args d in
  r_unknown r = [] /\ r_code r = Some 0 /\ r_error r = None /\ exists q, files (r_disk r) q <> files d q.
Proof.
  exists 5000, ex_content, split_path, (map txt ["-rs"; "new.rs"; "-s"; "-o"; "unheard-of"]%string), ex_disk, (txt "unheard-of").
  split; [vm_compute; tauto|]. cbv zeta. split; [vm_compute; reflexivity|]. split; [vm_compute; reflexivity|].
  split; [vm_compute; reflexivity|]. exists [txt "new.rs"]. vm_compute. discriminate.
Qed.
Print Assumptions C43_swallowed_refuted.

(** an option given twice is reported as unknown *)
Theorem C43_repeated_refuted : exists args, tidy args = true /\ strays args = [] /\ unknown_args args <> [].
Proof. exists (map txt ["-o"; "-o"]%string). split; [|split]; vm_compute; [reflexivity | reflexivity | discriminate]. Qed.
Print Assumptions C43_repeated_refuted.

(** folders are made before the arguments are checked *)
Theorem C43_folder_refuted : exists fuel content locate args d q, strays args <> [] /\
  folders d q = false /\ folders (r_disk (cli fuel content locate args d)) q = true.
Proof.
  exists 0, ex_content, split_path, (map txt ["-cd"; "w/new"; "unheard-of"]%string), ex_disk, [txt "w"; txt "new"].
  split; [vm_compute; discriminate|]. split; vm_compute; reflexivity.
Qed.
Print Assumptions C43_folder_refuted.

(** whatever the arguments are, no folder is lost *)
Lemma set_folder_kept : forall d o v d' x es q, set_folder d o v = (d', x, es) -> folders d q = true -> folders d' q = true.
Proof.
  intros d o [p|] d' x es q H Q; cbn [set_folder] in H; [|injection H as <- <- <-; exact Q].
  destruct (present d p); [injection H as <- <- <-; exact Q|]. unfold create_dir in H.
  destruct (folders d (removelast p)); injection H as <- <- <-; [|exact Q]. cbn [folders]. rewrite Q. apply orb_true_r.
Qed.
Lemma put_opt_folders : forall ow o c d d' e, put_opt ow o c d = (d', e) -> folders d' = folders d.
Proof.
  intros ow [p|] c d d' e H; cbn [put_opt] in H; [|injection H as <- <-; reflexivity].
  apply put_file_cases in H as [(-> & _)|(_ & F & _)]; [reflexivity | exact F].
Qed.
Lemma codes_folders : forall ow em o p d d' e, codes ow em o p d = (d', e) -> folders d' = folders d.
Proof.
  intros ow em o p d d' e H. unfold codes in H.
  destruct (put_opt ow (o_rust o) (DCode TRust em p) d) as [d1 e1] eqn:P. apply put_opt_folders in P. unfold andthen in H.
  destruct e1 as [[x|]| | |]; try (injection H as <- <-; exact P). apply put_opt_folders in H. congruence.
Qed.
Lemma project_folders : forall o s p d d' e, project o s p d = (d', e) -> folders d' = folders d.
Proof.
  intros o s p d d' e H. unfold project in H. destruct (o_uml o) as [q|].
  - destruct (puml s); try (injection H as <- <-; reflexivity).
    apply put_file_cases in H as [(-> & _)|(_ & F & _)]; [reflexivity | exact F].
  - destruct (render (o_consumer o) (o_producer o) s p (files d)) as [f [u|x|]]; injection H as <- <-; reflexivity.
Qed.
Lemma action_folders : forall fuel content ow em o d d' e, action fuel content ow em o d = (d', e) -> folders d' = folders d.
Proof.
  intros fuel content ow em o d d' e H. unfold action in H.
  repeat match type of H with
  | (_, _) = (_, _) => injection H as <- <-; reflexivity
  | codes _ _ _ _ _ = _ => exact (codes_folders _ _ _ _ _ _ _ H)
  | andthen _ _ = _ => fail 1
  | context [match ?x with _ => _ end] => destruct x
  end.
  match type of H with andthen (project ?o ?s ?p ?d) _ = _ => destruct (project o s p d) as [d3 e3] eqn:P end.
  apply project_folders in P. unfold andthen in H.
  destruct e3 as [[x|]| | |]; try (injection H as <- <-; exact P). apply codes_folders in H. congruence.
Qed.
Theorem C43_folders_kept : forall fuel content locate args d q, folders d q = true ->
  folders (r_disk (cli fuel content locate args d)) q = true.
Proof.
  intros fuel content locate args d q Q. unfold cli. destruct (configure locate args d) as [o d1] eqn:C.
  assert (Q1 : folders d1 q = true).
  { unfold configure in C. destruct (set_source d OSource _) as [? ?], (set_source d OWorkflow _) as [? ?],
      (set_file d _ ORust _) as [? ?], (set_file d _ OTypeScript _) as [? ?].
    destruct (set_folder d OConsumer _) as [[d2 c] e2] eqn:F1. destruct (set_folder d2 OProducer _) as [[d3 c3] e3] eqn:F2.
    destruct (set_file d3 _ OPuml _) as [? ?]. injection C as _ <-.
    eapply set_folder_kept; [exact F2|]. eapply set_folder_kept; [exact F1 | exact Q]. }
  destruct (unknown_args args); [|exact Q1]. destruct (negb (flag help_keys args) && nonempty (o_errs o)); [exact Q1|].
  destruct (action fuel content (flag overwrite_keys args) (flag embedded_keys args) o d1) as [d2 e] eqn:A.
  apply action_folders in A. destruct e; cbn [r_disk]; congruence.
Qed.
Print Assumptions C43_folders_kept.

Example C43_folders_example : let r := cli 0 ex_content split_path (map txt ["-cd"; "w/new"; "-pd"; "w/other"]%string) ex_disk in
  folders ex_disk w_client = true /\ folders (r_disk r) w_client = true /\ folders (r_disk r) [txt "w"; txt "new"] = true /\
  folders (r_disk r) [txt "w"; txt "other"] = true /\ folders (r_disk r) [txt "w"; txt "third"] = false.
Proof. cbv zeta. repeat split; vm_compute; reflexivity. Qed.

(** ** C71: what success means *)

Definition located (locate : text -> fpath) (v : option text) (q : fpath) : bool :=
  match v with Some v => peqb (locate v) q | None => false end.

Lemma codes_done : forall ow em o p d d', codes ow em o p d = (d', Done None) -> forall q,
  files d' q = if match o_ts o with Some x => peqb x q | None => false end then Some (DCode TTypeScript em p)
               else if match o_rust o with Some x => peqb x q | None => false end then Some (DCode TRust em p) else files d q.
Proof.
  intros ow em o p d d' H q. unfold codes in H.
  destruct (put_opt ow (o_rust o) (DCode TRust em p) d) as [d1 e1] eqn:P1. unfold andthen in H.
  destruct e1 as [[x|]| | |]; try discriminate H.
  assert (F1 : files d1 q = if match o_rust o with Some x => peqb x q | None => false end then Some (DCode TRust em p) else files d q).
  { destruct (o_rust o) as [x|]; cbn [put_opt] in P1; [|injection P1 as <-; reflexivity].
    apply put_file_cases in P1 as [(_ & y & Y)|(F & _)]; [discriminate|]. rewrite F. reflexivity. }
  rewrite <- F1. destruct (o_ts o) as [x|]; cbn [put_opt] in H; [|injection H as <-; reflexivity].
  apply put_file_cases in H as [(_ & y & Y)|(F & _)]; [discriminate|]. rewrite F. reflexivity.
Qed.

(** Exit code 0, no error and no call for help: the sources were accepted, and
    the files are the ones asked for, made from them. *)
Theorem C71_success : forall fuel content locate args d, tidy args = true -> asked help_keys args = false ->
  let r := cli fuel content locate args d in
  r_code r = Some 0 -> r_error r = None ->
  exists v t p0 p f, given OSource args = Some v /\ read content d (locate v) = Some t /\ accepts t p0 /\
    match given OWorkflow args with
    | None => p = p0 /\ f = files d /\ given OPuml args = None
    | Some w => exists tw s, read content d (locate w) = Some tw /\ wf_accepts tw p0 s p /\
        match given OPuml args with
        | Some u => exists c, puml s = Ok c /\ f = upd (files d) (locate u) c
        | None => render (option_map locate (given OConsumer args)) (option_map locate (given OProducer args)) s p (files d) = (f, Ok tt)
        end
    end /\
    forall q, files (r_disk r) q =
      if located locate (given OTypeScript args) q then Some (DCode TTypeScript (asked embedded_keys args) p)
      else if located locate (given ORust args) q then Some (DCode TRust (asked embedded_keys args) p)
      else f q.
Proof.
  intros fuel content locate args d T H r. unfold r, cli.
  rewrite <- (flag_asked help_keys args (or_introl eq_refl) T) in H.
  rewrite <- (flag_asked embedded_keys args (or_intror (or_introl eq_refl)) T).
  destruct (configure locate args d) as [o d1] eqn:C. apply configure_spec in C. pose proof (cg_files _ _ _ _ _ C) as F.
  destruct (unknown_args args) as [|u us]; [|discriminate]. rewrite H. cbn [negb andb].
  destruct (nonempty (o_errs o)) eqn:NE; [discriminate|]. assert (ER : o_errs o = []) by (destruct (o_errs o); [reflexivity | discriminate]).
  assert (ALL : forall g k, In (g, k) [(o_src, OSource); (o_workflow, OWorkflow); (o_rust, ORust); (o_ts, OTypeScript);
               (o_consumer, OConsumer); (o_producer, OProducer); (o_uml, OPuml)] -> g o = option_map locate (given k args)).
  { intros g k I. rewrite (cg_all _ _ _ _ _ C ER g k I). apply chosen_given. exact T. }
  clear C. pose proof (ALL o_src OSource ltac:(cbn; tauto)) as G1. pose proof (ALL o_workflow OWorkflow ltac:(cbn; tauto)) as G2.
  pose proof (ALL o_rust ORust ltac:(cbn; tauto)) as G3. pose proof (ALL o_ts OTypeScript ltac:(cbn; tauto)) as G4.
  pose proof (ALL o_consumer OConsumer ltac:(cbn; tauto)) as G5. pose proof (ALL o_producer OProducer ltac:(cbn; tauto)) as G6.
  pose proof (ALL o_uml OPuml ltac:(cbn; tauto)) as G7. clear ALL.
  set (ow := flag overwrite_keys args). set (em := flag embedded_keys args).
  destruct (action fuel content ow em o d1) as [d2 e] eqn:A. destruct e as [e| | |]; try discriminate.
  cbn [r_code r_error r_disk]. intros _ ->.
  assert (CO : forall p d0, codes ow em o p d0 = (d2, Done None) -> forall q, files d2 q =
      if located locate (given OTypeScript args) q then Some (DCode TTypeScript em p)
      else if located locate (given ORust args) q then Some (DCode TRust em p) else files d0 q).
  { intros p d0 K q. rewrite (codes_done _ _ _ _ _ _ K q), G3, G4. unfold located.
    destruct (given OTypeScript args), (given ORust args); reflexivity. }
  unfold action in A. rewrite G1 in A. destruct (given OSource args) as [v|]; [|discriminate]. cbn [option_map] in A.
  assert (RD : forall p, read content d1 p = read content d p) by (intro p; unfold read; rewrite F; reflexivity).
  rewrite RD in A. destruct (read content d (locate v)) as [t|] eqn:R1; [|discriminate].
  destruct (parse t) as [p0| | |] eqn:P; try discriminate. rewrite G2, G7 in A.
  exists v, t, p0. destruct (given OWorkflow args) as [w|].
  - cbn [option_map is_some negb andb] in A. rewrite RD in A. destruct (read content d (locate w)) as [tw|] eqn:R2; [|discriminate].
    destruct (wparse fuel tw p0) as [s p| | |] eqn:W; try discriminate.
    destruct (project o s p d1) as [d3 e3] eqn:PR. unfold andthen in A. destruct e3 as [[x|]| | |]; try discriminate A.
    exists p, (files d3). split; [reflexivity|]. split; [exact R1|]. split; [exact P|]. split; [|exact (CO p d3 A)].
    exists tw, s. split; [reflexivity|]. split; [exists fuel; exact W|]. unfold project in PR. rewrite G7, G5, G6 in PR.
    destruct (given OPuml args) as [u|]; cbn [option_map] in PR.
    + destruct (puml s) as [c| |]; try discriminate. exists c. split; [reflexivity|].
      apply put_file_cases in PR as [(_ & y & Y)|(FF & _)]; [discriminate | congruence].
    + destruct (render (option_map locate (given OConsumer args)) (option_map locate (given OProducer args)) s p (files d1)) as [f [[]|x|]] eqn:RN;
        try discriminate PR. injection PR as <-. rewrite <- F. exact RN.
  - cbn [option_map is_some negb] in A. destruct (given OPuml args) as [u|]; cbn [option_map is_some andb] in A; [discriminate|].
    exists p0, (files d1). split; [reflexivity|]. split; [exact R1|]. split; [exact P|]. split; [tauto | exact (CO p0 d1 A)].
Qed.
Print Assumptions C71_success.

Example C71_example : exists s p f, wf_accepts chat_workflow chat_store s p /\
  render (Some w_client) (Some w_server) s p (files ex_disk) = (f, Ok tt) /\
  files (r_disk (cli 5000 ex_content split_path (map txt ex_args) ex_disk)) [txt "new.ts"] = Some (DCode TTypeScript false p) /\
  files (r_disk (cli 5000 ex_content split_path (map txt ex_args) ex_disk)) (w_server ++ map txt ["implementation"; "protocol"; "mod.rs"]%string) = Some (DProtocol p).
Proof.
  exists (fst chat), (snd chat), (fst (render (Some w_client) (Some w_server) (fst chat) (snd chat) (files ex_disk))).
  split; [apply chat_rendered|]. split; [apply render_pair; vm_compute; reflexivity|].
  split; vm_compute; reflexivity.
Qed.

Lemma wparse_same : forall f g t p s p' , wparse f t p = WAccepted s p' -> wparse g t p = WRunning \/ wparse g t p = WAccepted s p'.
Proof.
  intros f g t p s p' H. unfold wparse in *. destruct (wrun g t None wstore_new p) eqn:G; try tauto; right.
  all: rewrite <- G.
  all: assert (A : wrun (g + f) t None wstore_new p = wrun g t None wstore_new p) by (apply wrun_more_fuel; rewrite G; discriminate).
  all: assert (B : wrun (f + g) t None wstore_new p = wrun f t None wstore_new p) by (apply wrun_more_fuel; rewrite H; discriminate).
  all: rewrite <- A, Nat.add_comm, B; exact H.
Qed.

(** A diagram asked for is written, over the one that was there as well. *)
Theorem C71_diagram : forall fuel content locate args d v t p0 w tw s p u c, tidy args = true -> asked help_keys args = false ->
  given OSource args = Some v -> read content d (locate v) = Some t -> accepts t p0 ->
  given OWorkflow args = Some w -> read content d (locate w) = Some tw -> wf_accepts tw p0 s p ->
  given OPuml args = Some u -> puml s = Ok c -> given ORust args = None -> given OTypeScript args = None ->
  let r := cli fuel content locate args d in
  r_code r = Some 0 -> folders (r_disk r) (locate u) = false ->
  r_error r = None /\ files (r_disk r) (locate u) = Some c /\ forall q, q <> locate u -> files (r_disk r) q = files d q.
Proof.
  intros fuel content locate args d v t p0 w tw s p u c T H V RV AC W RW AW U PU NR NT r. unfold r, cli.
  rewrite <- (flag_asked help_keys args (or_introl eq_refl) T) in H.
  destruct (configure locate args d) as [o d1] eqn:C. apply configure_spec in C. pose proof (cg_files _ _ _ _ _ C) as F.
  destruct (unknown_args args) as [|x xs]; [|discriminate]. rewrite H. cbn [negb andb].
  destruct (nonempty (o_errs o)) eqn:NE; [discriminate|]. assert (ER : o_errs o = []) by (destruct (o_errs o); [reflexivity | discriminate]).
  assert (ALL : forall g k, In (g, k) [(o_src, OSource); (o_workflow, OWorkflow); (o_rust, ORust); (o_ts, OTypeScript);
               (o_consumer, OConsumer); (o_producer, OProducer); (o_uml, OPuml)] -> g o = option_map locate (given k args)).
  { intros g k I. rewrite (cg_all _ _ _ _ _ C ER g k I). apply chosen_given. exact T. }
  clear C. pose proof (ALL o_src OSource ltac:(cbn; tauto)) as G1. pose proof (ALL o_workflow OWorkflow ltac:(cbn; tauto)) as G2.
  pose proof (ALL o_rust ORust ltac:(cbn; tauto)) as G3. pose proof (ALL o_ts OTypeScript ltac:(cbn; tauto)) as G4.
  pose proof (ALL o_uml OPuml ltac:(cbn; tauto)) as G7. clear ALL.
  rewrite V in G1. rewrite W in G2. rewrite NR in G3. rewrite NT in G4. rewrite U in G7. cbn [option_map] in *.
  destruct (action fuel content (flag overwrite_keys args) (flag embedded_keys args) o d1) as [d2 e] eqn:A.
  unfold action, codes, project in A. rewrite G1, G2, G7 in A. unfold read in *. rewrite F, RV in A. rewrite AC in A.
  cbn [is_some negb andb] in A. rewrite RW in A.
  destruct AW as [g AW]. destruct (wparse_same g fuel tw p0 s p AW) as [E|E]; rewrite E in A; [injection A as <- <-; discriminate|].
  rewrite G3, G4, PU in A. cbn [put_opt] in A.
  unfold put_file in A. rewrite andb_false_r in A. destruct (folders d1 (locate u) && negb (is_some (files d1 (locate u)))) eqn:B.
  - cbn [andthen] in A. injection A as <- <-. cbn [r_code r_disk]. intros _ K. rewrite K in B. discriminate.
  - cbn [andthen] in A. injection A as <- <-. cbn [r_code r_disk r_error files folders]. intros _ _.
    split; [reflexivity|]. rewrite F. split; [apply upd_same|]. intros q Q. apply upd_other. congruence.
Qed.
Print Assumptions C71_diagram.

Example C71_diagram_example : exists c,
  let args := map txt ["-s"; "chat.prot"; "-wf"; "chat.workflow"; "-d"; "old.rs"; "-o"]%string in
  let r := cli 5000 ex_content split_path args ex_disk in
  given OPuml args = Some (txt "old.rs") /\ puml (fst chat) = Ok c /\ files ex_disk [txt "old.rs"] = Some (DUser 3) /\
  r_code r = Some 0 /\ folders (r_disk r) [txt "old.rs"] = false /\ files (r_disk r) [txt "old.rs"] = Some c.
Proof.
  destruct (puml (fst chat)) as [c| |] eqn:P; [|vm_compute in P; discriminate|vm_compute in P; discriminate].
  exists c. cbv zeta. split; [vm_compute; reflexivity|]. split; [reflexivity|]. split; [vm_compute; reflexivity|].
  split; [vm_compute; reflexivity|]. split; [vm_compute; reflexivity|]. vm_compute in P. injection P as <-. vm_compute. reflexivity.
Qed.

(** exit code 1: no file was changed *)
Theorem C71_exit_1 : forall fuel content locate args d, r_code (cli fuel content locate args d) = Some 1 ->
  files (r_disk (cli fuel content locate args d)) = files d.
Proof.
  intros fuel content locate args d. unfold cli. destruct (configure locate args d) as [o d1] eqn:C. apply configure_spec in C.
  pose proof (cg_files _ _ _ _ _ C) as F. destruct (unknown_args args); [|intros _; exact F].
  destruct (negb (flag help_keys args) && nonempty (o_errs o)); [intros _; exact F|].
  destruct (action fuel content (flag overwrite_keys args) (flag embedded_keys args) o d1) as [d2 [e| | |]] eqn:A; try discriminate.
  intros _. cbn [r_disk]. unfold action in A. destruct (o_src o) as [src|]; [|discriminate].
  destruct (read content d1 src) as [t|]; [|discriminate].
  assert (NC : forall em ow p d0 d', codes ow em o p d0 <> (d', Stopped)).
  { intros em ow p d0 d' K. unfold codes in K. destruct (put_opt ow (o_rust o) (DCode TRust em p) d0) as [da ea] eqn:P1.
    assert (Q1 : exists x, ea = Done x).
    { destruct (o_rust o); cbn [put_opt] in P1; [|injection P1 as <- <-; eexists; reflexivity].
      apply put_file_cases in P1 as [(_ & y & ->)|(_ & _ & -> & _)]; eexists; reflexivity. }
    destruct Q1 as ([x|] & ->); cbn [andthen] in K; [discriminate|].
    destruct (o_ts o); cbn [put_opt] in K; [|discriminate].
    apply put_file_cases in K as [(_ & y & Y)|(_ & _ & Y & _)]; discriminate. }
  destruct (parse t) as [p| | |]; try discriminate; [|injection A as <-; exact F].
  destruct (negb (is_some (o_workflow o)) && is_some (o_uml o)); [discriminate|].
  destruct (o_workflow o) as [wf|]; [|exfalso; exact (NC _ _ _ _ _ A)].
  destruct (read content d1 wf) as [w|]; [|discriminate]. destruct (wparse fuel w p) as [s p'| | |]; try discriminate.
  exfalso. destruct (project o s p' d1) as [d3 e3] eqn:PR. unfold andthen in A.
  assert (NP : e3 <> Stopped).
  { intros ->. unfold project in PR. destruct (o_uml o).
    - destruct (puml s); try discriminate. apply put_file_cases in PR as [(_ & y & Y)|(_ & _ & Y & _)]; discriminate.
    - destruct (render (o_consumer o) (o_producer o) s p' (files d1)) as [f [u|x|]]; discriminate. }
  destruct e3 as [[x|]| | |]; try discriminate A; [exact (NC _ _ _ _ _ A) | contradiction].
Qed.
Print Assumptions C71_exit_1.

(** a failure ends with exit code 0 *)
Theorem C71_failure_code_refuted : exists fuel content locate args d,
  let r := cli fuel content locate args d in
  r_code r = Some 0 /\ r_error r = Some ASource /\ files (r_disk r) = files d.
Proof.
  exists 0, ex_content, split_path, (map txt ["-s"; "bad.prot"; "-rs"; "new.rs"]%string), ex_disk.
  cbv zeta. split; [vm_compute; reflexivity|]. split; [vm_compute; reflexivity|]. vm_compute. reflexivity.
Qed.
Print Assumptions C71_failure_code_refuted.

(** an option whose value is missing is passed over in silence *)
Theorem C71_missing_value_refuted : exists fuel content locate args d a,
  In a args /\ is_key (file_keys ORust) a = true /\
  let r := cli fuel content locate args d in
  r_code r = Some 0 /\ r_error r = None /\ r_config r = [] /\ r_unknown r = [] /\ files (r_disk r) = files d.
Proof.
  exists 0, ex_content, split_path, (map txt ["-s"; "chat.prot"; "-rs"]%string), ex_disk, (txt "-rs").
  split; [vm_compute; tauto|]. split; [vm_compute; reflexivity|]. cbv zeta. split; [vm_compute; reflexivity|].
  split; [vm_compute; reflexivity|]. split; [vm_compute; reflexivity|]. split; [vm_compute; reflexivity|]. vm_compute. reflexivity.
Qed.
Print Assumptions C71_missing_value_refuted.

(** the program may run for ever *)
Theorem C71_endless_refuted : exists content locate args d, forall fuel, r_code (cli fuel content locate args d) = None.
Proof.
  exists ex_content, split_path, (map txt ["-s"; "chat.prot"; "-wf"; "endless.workflow"]%string), ex_disk. intro fuel.
  assert (P : parse chat_protocol = PAccepted chat_store) by (vm_compute; reflexivity).
  assert (W : wparse fuel (txt "Users.Request") chat_store = WRunning).
  { unfold wparse. destruct fuel as [|[|[|fuel]]]; try reflexivity.
    apply (wrun_stuck fuel "t"%char (txt "Users.Request") wstore_new chat_store [QWord; QDot; QSemi; QExcl; QOpen]); reflexivity. }
  unfold cli.
  assert (C : configure split_path (map txt ["-s"; "chat.prot"; "-wf"; "endless.workflow"]%string) ex_disk =
    (mkOptions (Some [txt "chat.prot"]) (Some [txt "endless.workflow"]) None None None None None [], ex_disk)) by (vm_compute; reflexivity).
  rewrite C. assert (U : unknown_args (map txt ["-s"; "chat.prot"; "-wf"; "endless.workflow"]%string) = []) by (vm_compute; reflexivity).
  rewrite U. change (flag help_keys (map txt ["-s"; "chat.prot"; "-wf"; "endless.workflow"]%string)) with false.
  cbn [negb o_errs nonempty andb]. unfold action. cbn [o_src].
  assert (R1 : read ex_content ex_disk [txt "chat.prot"] = Some chat_protocol) by reflexivity.
  assert (R2 : read ex_content ex_disk [txt "endless.workflow"] = Some (txt "Users.Request")) by reflexivity.
  rewrite R1, P. cbn [o_workflow o_uml is_some negb andb]. rewrite R2, W. reflexivity.
Qed.
Print Assumptions C71_endless_refuted.
