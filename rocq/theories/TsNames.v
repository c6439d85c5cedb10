(** How generated TypeScript tells messages apart: the objects the protocol's
    reader makes, the tests in the client's requests and in the server, the
    client's switch over broadcasts. *)
From Coq Require Import String Ascii NArith List Arith Lia Bool.
From Verif Require Import Bytes ProtoModel ProtoInv ProtoTree ProtoService WfModel WfServed RenderModel RenderProofs.
Import ListNotations.
Close Scope string_scope.
Open Scope list_scope.
Open Scope nat_scope.

(** ** JavaScript objects *)

(** what a value is when its properties are read: an object, or a function;
    [None] stands for [undefined]. Functions have no readable properties here. *)
Inductive js := JObj (get : text -> option js) | JFun.
Definition prop (m : js) (k : text) : option js := match m with JObj g => g k | JFun => None end.

(** the properties every object literal inherits from [Object.prototype]
    (ECMAScript, sections 20.1.3 and B.2.2) *)
Definition object_functions : list text :=
  map txt ["constructor"; "toString"; "toLocaleString"; "valueOf"; "hasOwnProperty"; "isPrototypeOf";
           "propertyIsEnumerable"; "__defineGetter__"; "__defineSetter__"; "__lookupGetter__"; "__lookupSetter__"]%string.
Definition proto_key : text := txt "__proto__".
Definition object_function (k : text) : option js := if existsb (teqb k) object_functions then Some JFun else None.
Definition inherited (k : text) : option js :=
  if teqb k proto_key then Some (JObj object_function) else object_function k.

(** the literal [{ k: v }]; with the key [__proto__] it sets the prototype *)
Definition literal (k : text) (v : js) : js :=
  JObj (fun n => if teqb n k then Some v else if teqb k proto_key then prop v n else inherited n).

(** protocol/render/typescript/mod.rs l.1608-1622 [get_available_entity]:
    [{ A: { B: instance } }] *)
Fixpoint nest (path : list text) (instance : js) : js :=
  match path with
  | [] => instance
  | k :: path => literal k (nest path instance)
  end.

(** mod.rs l.1590-1606 [get_entity_path]: the names of the groups around *)
Inductive around (p : store) : nat -> list text -> Prop :=
| AR_root : around p 0 []
| AR_in : forall parent g path, parent <> 0 -> get_group p parent = Some g -> around p (g_parent g) path ->
    around p parent (path ++ [g_name g])
| AR_lost : forall parent, parent <> 0 -> get_group p parent = None -> around p parent [].

(** mod.rs l.1624-1682 [buffer], the [switch] in [getMessage]: what is returned
    as [msg] for a message with this id; enums come first. [instance] is the
    decoded struct, or what [get()] of the decoded enum returns. *)
Definition received (p : store) (id : nat) (instance m : js) : Prop :=
  exists parent name path, around p parent path /\ m = nest (path ++ [name]) instance /\
  match find (fun e => e_id e =? id) (enums p) with
  | Some e => e_parent e = parent /\ e_name e = name
  | None =>
    match find (fun x => s_id x =? id) (structs p) with
    | Some x => s_parent x = parent /\ s_name x = name
    | None => False
    end
  end.

(** mod.rs l.1648-1660, l.168: [getRef().getId()] of the returned object. An
    enum's is the plain object of [get()], which has no such method. *)
Definition ref_id (p : store) (id : nat) : option nat :=
  match find (fun e => e_id e =? id) (enums p) with
  | Some e => None
  | None => option_map s_id (find (fun x => s_id x =? id) (structs p))
  end.

(** ** The client: workflow/render/consumer/typescript/ *)

(** render_request.rs l.269-340: [m !== undefined && m.A !== undefined &&
    m.A.B !== undefined], and [m.A.B] *)
Fixpoint reads (m : js) (path : list text) : option js :=
  match path with
  | [] => Some m
  | k :: path => match prop m k with Some x => reads x path | None => None end
  end.

(** the handler called and the value the promise is resolved with; [None] when
    it is rejected (l.345) *)
Fixpoint answered (arms : list (list text * text)) (m : js) : option (text * js) :=
  match arms with
  | [] => None
  | (path, handler) :: arms =>
    match reads m path with Some x => Some (handler, x) | None => answered arms m end
  end.

(** the id of the class called [Protocol.R] *)
Definition class_id (p : store) (r : text) : option nat := option_map snd (find_by_path p 0 (split_dots r)).

(** render_consumer.rs l.263-271, l.395-416: what happens to a message no call is
    waiting for; [cases] are subjects and references *)
Inductive outcome := Emitted (subject : text) | Warned | Thrown.
Fixpoint switch (p : store) (cases : list (text * text)) (id : nat) : outcome :=
  match cases with
  | [] => Warned
  | (subject, r) :: cases =>
    match class_id p r with
    | Some i => if i =? id then Emitted subject else switch p cases id
    | None => switch p cases id
    end
  end.
Definition unexpected (p : store) (cases : list (text * text)) (id : nat) : outcome :=
  match ref_id p id with
  | None => Thrown
  | Some id => switch p cases id
  end.
(** in the document of the client's index the broadcasts come after the exported
    requests and beacons *)
Definition cases_of (s : wstore) (exports : list (text * text)) : list (text * text) :=
  skipn (length (w_requests s) + length (w_beacons s)) exports.

(** ** The server: workflow/render/producer/typescript/render_mod.rs *)

(** l.520-541 [_tryToGet]: every step must give an object *)
Fixpoint tries (m : js) (path : list text) : option js :=
  match path with
  | [] => Some m
  | k :: path =>
    match prop m k with
    | Some (JObj g) => tries (JObj g) path
    | _ => None
    end
  end.
Fixpoint picked (table : list (list text * text)) (m : js) : option (text * js) :=
  match table with
  | [] => None
  | (path, handler) :: table =>
    match tries m path with Some x => Some (handler, x) | None => picked table m end
  end.

(** l.274-425: what becomes of a message of a consumer whose hash is accepted and
    whose keys are set up *)
Inductive served_by :=
| ByHash
| ByResponse (handler : text) (body : js)
| ByBeacon (handler : text) (body : js)
| Unknown.
Definition serve (requests beacons : list (list text * text)) (m : js) : served_by :=
  match tries m (map txt ["InternalServiceGroup"; "HashRequest"]%string) with
  | Some _ => ByHash
  | None =>
    match picked requests m with
    | Some (h, x) => ByResponse h x
    | None =>
      match picked beacons m with
      | Some (h, x) => ByBeacon h x
      | None => Unknown
      end
    end
  end.

(** ** Lemmas *)

Definition prefix (a b : list text) : Prop := exists c, b = a ++ c.

Lemma teqb_no : forall a b, a <> b -> teqb a b = false.
Proof. intros a b N. destruct (teqb a b) eqn:E; [|reflexivity]. apply teqb_iff in E. congruence. Qed.

Lemma object_function_none : forall k, ~ In k object_functions -> object_function k = None.
Proof.
  intros k N. unfold object_function. destruct (existsb (teqb k) object_functions) eqn:E; [|reflexivity].
  apply existsb_exists in E as (x & X & E). apply teqb_iff in E. subst x. contradiction.
Qed.

Lemma prop_own : forall k v, prop (literal k v) k = Some v.
Proof. intros k v. cbn [literal prop]. rewrite (proj2 (teqb_iff k k) eq_refl). reflexivity. Qed.
Lemma prop_other : forall k v n, k <> proto_key -> n <> k -> prop (literal k v) n = inherited n.
Proof. intros k v n K N. cbn [literal prop]. rewrite (teqb_no n k N), (teqb_no k proto_key K). reflexivity. Qed.

Lemma reads_own : forall x v, reads (nest x v) x = Some v.
Proof. induction x as [|k x IH]; intro v; [reflexivity|]. cbn [nest reads]. rewrite prop_own. apply IH. Qed.

Lemma reads_apart : forall x y v, ~ prefix x y -> ~ prefix y x -> ~ In proto_key x ->
  (forall k, In k y -> ~ In k (proto_key :: object_functions)) -> reads (nest x v) y = None.
Proof.
  induction x as [|k x IH]; intros y v P Q N B; [elim P; exists y; reflexivity|].
  destruct y as [|n y]; [elim Q; exists (k :: x); reflexivity|]. cbn [nest reads].
  destruct (list_eq_dec ascii_dec n k) as [->|D].
  - rewrite prop_own. apply IH.
    + intros (c & ->). apply P. exists c. reflexivity.
    + intros (c & ->). apply Q. exists c. reflexivity.
    + intro K. apply N. right. exact K.
    + intros m M. apply B. right. exact M.
  - rewrite prop_other; [|intro K; apply N; left; exact K | exact D]. unfold inherited.
    specialize (B n (or_introl eq_refl)). cbn [In] in B.
    rewrite teqb_no by (intro K; apply B; left; symmetry; exact K).
    rewrite object_function_none by (intro K; apply B; right; exact K). reflexivity.
Qed.

Lemma nest_object : forall x g, exists h, nest x (JObj g) = JObj h.
Proof. intros [|k x] g; cbn [nest]; [exists g; reflexivity | unfold literal; eexists; reflexivity]. Qed.

Lemma tries_own : forall x g, tries (nest x (JObj g)) x = Some (JObj g).
Proof.
  induction x as [|k x IH]; intro g; [reflexivity|]. cbn [nest tries]. rewrite prop_own.
  destruct (nest_object x g) as (h & H). specialize (IH g). rewrite H in IH |- *. exact IH.
Qed.

Lemma tries_apart : forall x y v, ~ prefix x y -> ~ prefix y x -> ~ In proto_key x -> ~ In proto_key y ->
  tries (nest x v) y = None.
Proof.
  induction x as [|k x IH]; intros y v P Q N B; [elim P; exists y; reflexivity|].
  destruct y as [|n y]; [elim Q; exists (k :: x); reflexivity|]. cbn [nest tries].
  destruct (list_eq_dec ascii_dec n k) as [->|D].
  - rewrite prop_own. specialize (IH y v). destruct (nest x v) as [h|]; [|reflexivity]. apply IH.
    + intros (c & ->). apply P. exists c. reflexivity.
    + intros (c & ->). apply Q. exists c. reflexivity.
    + intro K. apply N. right. exact K.
    + intro K. apply B. right. exact K.
  - rewrite prop_other; [|intro K; apply N; left; exact K | exact D]. unfold inherited.
    rewrite teqb_no by (intro K; apply B; left; exact K).
    unfold object_function. destruct (existsb _ _); reflexivity.
Qed.

(** ** Which object is received *)

Lemma around_fun : forall p a x y, around p a x -> around p a y -> x = y.
Proof.
  intros p a x y H. revert y. induction H as [|a g x N G H IH|a N G]; intros y K.
  - inversion K as [|a' g' y' N' G' K1|a' N' G']; subst; congruence.
  - inversion K as [|a' g' y' N' G' K1|a' N' G']; subst; try congruence.
    assert (g' = g) as -> by congruence. rewrite (IH _ K1). reflexivity.
  - inversion K as [|a' g' y' N' G' K1|a' N' G']; subst; congruence.
Qed.

Lemma received_once : forall p id v m m', received p id v m -> received p id v m' -> m = m'.
Proof.
  intros p id v m m' (a & n & x & A & -> & E) (b & k & y & B & -> & F).
  destruct (find _ (enums p)) as [e|]; [|destruct (find _ (structs p)) as [z|]; [|contradiction]];
    destruct E as [E1 E2], F as [F1 F2]; subst; rewrite (around_fun _ _ _ _ A B); reflexivity.
Qed.

(** the groups passed on the way down are the ones met on the way up *)
Inductive listed (p : store) (a : nat) : list text -> nat -> Prop :=
| LS_here : listed p a [] a
| LS_in : forall path b g, listed p a path b -> In g (groups p) -> g_parent g = b -> listed p a (path ++ [g_name g]) (g_id g).

Lemma listed_cons : forall p a g path b, In g (groups p) -> g_parent g = a -> listed p (g_id g) path b ->
  listed p a (g_name g :: path) b.
Proof.
  intros p a g path b G P L. induction L as [|path b h L IH H E].
  - apply (LS_in p a [] a g); [constructor | exact G | exact P].
  - change (g_name g :: path ++ [g_name h]) with ((g_name g :: path) ++ [g_name h]). eapply LS_in; eassumption.
Qed.

Lemma found_place : forall p path a gs id, find_by_path p a path = Some (gs, id) ->
  exists pre scope name, path = pre ++ [name] /\ listed p a pre scope /\ placed p id scope name.
Proof.
  intros p. induction path as [|t path IH]; intros a gs id H; cbn [find_by_path] in H; [discriminate|].
  destruct path as [|t' path].
  - exists [], a, t. split; [reflexivity|]. split; [constructor|].
    destruct (find _ (enums p)) as [e|] eqn:F.
    + apply find_some in F as [A B]. apply andb_true_iff in B as [B1 B2]. apply teqb_iff in B1. apply Nat.eqb_eq in B2.
      injection H as _ <-. left. exists e. auto.
    + destruct (find _ (structs p)) as [x|] eqn:F2; [|discriminate].
      apply find_some in F2 as [A B]. apply andb_true_iff in B as [B1 B2]. apply teqb_iff in B1. apply Nat.eqb_eq in B2.
      injection H as _ <-. right. exists x. auto.
  - destruct (find _ (groups p)) as [g|] eqn:F; [|discriminate].
    apply find_some in F as [A B]. apply andb_true_iff in B as [B1 B2]. apply teqb_iff in B1. apply Nat.eqb_eq in B2.
    destruct (find_by_path p (g_id g) (t' :: path)) as [[gs' id']|] eqn:R; [|discriminate]. injection H as _ <-.
    destruct (IH _ _ _ R) as (pre & scope & name & -> & L & P). exists (t :: pre), scope, name.
    split; [reflexivity|]. split; [|exact P]. subst t. eapply listed_cons; eassumption.
Qed.

Lemma group_of : forall p g, In g (groups p) -> has_group p (g_id g) (g_parent g) (g_name g).
Proof.
  intros p g G. unfold has_group. apply in_map_iff. exists g. split; [reflexivity|]. unfold all_groups. apply in_app_iff. left. exact G.
Qed.

Lemma listed_around : forall p, uniq p -> forall path b, listed p 0 path b -> around p b path.
Proof.
  intros p U path b L. induction L as [|path b g L IH G E]; [constructor|]. subst b.
  pose proof (group_of p g G) as HG. pose proof (group_nonzero p U _ _ _ HG) as NZ.
  destruct (get_group p (g_id g)) as [h|] eqn:F.
  - pose proof F as F'. unfold get_group in F'. apply find_some in F' as [F1 F2]. apply Nat.eqb_eq in F2.
    pose proof (group_of p h F1) as HH. rewrite F2 in HH. destruct (group_parent p U _ _ _ _ _ HG HH) as [P N].
    rewrite N. apply AR_in; [exact NZ | exact F | rewrite <- P; exact IH].
  - exfalso. unfold get_group in F. apply (find_none _ _ F) in G. rewrite Nat.eqb_refl in G. discriminate.
Qed.

Lemma found_received : forall p x gs id v, uniq p -> find_by_path p 0 x = Some (gs, id) -> received p id v (nest x v).
Proof.
  intros p x gs id v U H. destruct (found_place _ _ _ _ _ H) as (pre & scope & name & -> & L & P).
  exists scope, name, pre. split; [exact (listed_around p U _ _ L)|]. split; [reflexivity|].
  destruct (find (fun e => e_id e =? id) (enums p)) as [e|] eqn:F.
  - apply find_some in F as [F1 F2]. apply Nat.eqb_eq in F2.
    apply (placed_once p U id); [|exact P]. left. exists e. auto.
  - destruct (find (fun y => s_id y =? id) (structs p)) as [y|] eqn:F2.
    + apply find_some in F2 as [F1 F3]. apply Nat.eqb_eq in F3.
      apply (placed_once p U id); [|exact P]. right. exists y. auto.
    + destruct P as [(e & E & <- & _)|(y & Y & <- & _)].
      * apply (find_none _ _ F) in E. rewrite Nat.eqb_refl in E. discriminate.
      * apply (find_none _ _ F2) in Y. rewrite Nat.eqb_refl in Y. discriminate.
Qed.

(** one id, one reference *)
Lemma found_once : forall p x y gs gs' id, uniq p -> find_by_path p 0 x = Some (gs, id) ->
  find_by_path p 0 y = Some (gs', id) -> x = y.
Proof.
  intros p x y gs gs' id U X Y. apply (names_path p U x y id); eapply find_by_path_ok; eassumption.
Qed.

(** ** Names that do not get in each other's way *)

(** no group is called like a struct or an enum beside it, and nothing is called
    like one of [bad] *)
Record clear (bad : list text) (p : store) : Prop := mkClear {
  CL_structs : forall g x, In g (groups p) -> In x (structs p) -> s_parent x = g_parent g -> s_name x <> g_name g;
  CL_enums : forall g e, In g (groups p) -> In e (enums p) -> e_parent e = g_parent g -> e_name e <> g_name g;
  CL_names : forall n, In n (map g_name (groups p) ++ map s_name (structs p) ++ map e_name (enums p)) -> ~ In n bad
}.

Lemma found_names : forall bad p, clear bad p -> forall x a r, find_by_path p a x = Some r -> forall k, In k x -> ~ In k bad.
Proof.
  intros bad p C. induction x as [|t x IH]; intros a r H k K; [contradiction|]. cbn [find_by_path] in H.
  destruct x as [|t' x].
  - destruct K as [<-|[]]. apply (CL_names _ _ C). rewrite !in_app_iff.
    destruct (find _ (enums p)) as [e|] eqn:F.
    + apply find_some in F as [A B]. apply andb_true_iff in B as [B1 B2]. apply teqb_iff in B1. subst t.
      right. right. apply in_map. exact A.
    + destruct (find _ (structs p)) as [y|] eqn:F2; [|discriminate].
      apply find_some in F2 as [A B]. apply andb_true_iff in B as [B1 B2]. apply teqb_iff in B1. subst t.
      right. left. apply in_map. exact A.
  - destruct (find _ (groups p)) as [g|] eqn:F; [|discriminate].
    apply find_some in F as [A B]. apply andb_true_iff in B as [B1 B2]. apply teqb_iff in B1.
    destruct (find_by_path p (g_id g) (t' :: x)) as [[gs id]|] eqn:R; [|discriminate].
    destruct K as [<-|K]; [|exact (IH _ _ R k K)]. subst t. apply (CL_names _ _ C). rewrite !in_app_iff. left.
    apply in_map. exact A.
Qed.

Lemma found_prefix : forall bad p, clear bad p -> forall x y a r r', find_by_path p a x = Some r ->
  find_by_path p a y = Some r' -> prefix x y -> x = y.
Proof.
  intros bad p C. induction x as [|t x IH]; intros y a r r' X Y (c & ->); [discriminate|].
  destruct x as [|t' x].
  - destruct c as [|t2 c]; [reflexivity|]. exfalso. change ([t] ++ t2 :: c) with (t :: t2 :: c) in Y.
    cbn [find_by_path] in X, Y.
    destruct (find _ (groups p)) as [g|] eqn:F; [|discriminate].
    apply find_some in F as [A B]. apply andb_true_iff in B as [B1 B2]. apply teqb_iff in B1. apply Nat.eqb_eq in B2.
    destruct (find (fun e => teqb (e_name e) t && (e_parent e =? a)) (enums p)) as [e|] eqn:F1.
    + apply find_some in F1 as [A' B]. apply andb_true_iff in B as [B3 B4]. apply teqb_iff in B3. apply Nat.eqb_eq in B4.
      apply (CL_enums _ _ C g e A A'); congruence.
    + destruct (find (fun z => teqb (s_name z) t && (s_parent z =? a)) (structs p)) as [z|] eqn:F2; [|discriminate].
      apply find_some in F2 as [A' B]. apply andb_true_iff in B as [B3 B4]. apply teqb_iff in B3. apply Nat.eqb_eq in B4.
      apply (CL_structs _ _ C g z A A'); congruence.
  - change (find_by_path p a (t :: t' :: x ++ c) = Some r') in Y. change ((t :: t' :: x) ++ c) with (t :: t' :: x ++ c).
    rewrite find_by_path_cons in X, Y by discriminate. destruct (find _ (groups p)) as [g|]; [|discriminate].
    destruct (find_by_path p (g_id g) (t' :: x)) as [i|] eqn:R1; [|discriminate X].
    destruct (find_by_path p (g_id g) (t' :: x ++ c)) as [j|] eqn:R2; [|discriminate Y].
    f_equal. apply (IH (t' :: x ++ c) (g_id g) i j R1 R2). exists c. reflexivity.
Qed.
