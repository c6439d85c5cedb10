(** What generating a project does to the user's files, and what it produces
    (C26, C63-C70). *)
From Coq Require Import String Ascii NArith List Arith Lia Bool.
From Verif Require Import Bytes ProtoModel WfModel WfProofs PropProto PropWf.
From Verif Require Import RenderModel RenderProofs.
Import ListNotations.
Close Scope string_scope.
Open Scope list_scope.
Open Scope nat_scope.

(** ** Workflows for the examples *)

(** what the parser makes of a workflow *)
Definition made (t : text) (p : store) : wstore * store :=
  match wparse (S (length t)) t p with WAccepted s p' => (s, p') | _ => (wstore_new, store_new) end.
Lemma made_accepts : forall t p, (match wparse (S (length t)) t p with WAccepted _ _ => true | _ => false end) = true ->
  wf_accepts t p (fst (made t p)) (snd (made t p)).
Proof.
  intros t p H. exists (S (length t)). unfold made. destruct (wparse (S (length t)) t p); try discriminate H. reflexivity.
Qed.
Lemma render_pair : forall cd pd s p f r, snd (render cd pd s p f) = r -> render cd pd s p f = (fst (render cd pd s p f), r).
Proof. intros cd pd s p f r <-. apply surjective_pairing. Qed.

(** a workspace with one Cargo.toml and a folder for each side *)
Definition w_manifest : fpath := [txt "w"; txt "Cargo.toml"].
Definition w_client : fpath := [txt "w"; txt "client"].
Definition w_server : fpath := [txt "w"; txt "server"].
Definition w_files : fs :=
  upd (upd (upd (fun _ => None) w_manifest (DManifest 7 [(txt "serde", txt "1.0"); (txt "log", txt "0.3")]))
           (w_server ++ [txt "events"; txt "disconnected.rs"]) (DUser 1))
      (w_server ++ [txt "responses"; txt "users_request.rs"]) (DUser 2).
Definition chat : wstore * store := made chat_workflow chat_store.
Definition chat_files : fs := fst (render (Some w_client) (Some w_server) (fst chat) (snd chat) w_files).
Lemma chat_rendered : wf_accepts chat_workflow chat_store (fst chat) (snd chat) /\
  render (Some w_client) (Some w_server) (fst chat) (snd chat) w_files = (chat_files, Ok tt).
Proof.
  split; [apply made_accepts; vm_compute; reflexivity|]. apply render_pair. vm_compute. reflexivity.
Qed.
Lemma w_separate : separate (Some w_client) (Some w_server).
Proof.
  intros a b q A B (r & R) (r' & R'). injection A as <-. injection B as <-. rewrite R in R'. discriminate.
Qed.

(** names that make trouble *)
Definition odd_protocol : text := txt "
group A {
  struct Ping { u8 a; } struct PING { u8 a; } struct B_C { u8 a; } group B { struct C { u8 a; } }
  struct R { u8 a; } struct S { u8 a; } struct E { u8 a; } enum K { u8 a; }
}
struct AR { u8 a; } struct Mod { u8 a; } struct Error { u8 a; } struct Type { u8 a; } struct M { u8 a; }
".
Definition odd_store : store := Eval vm_compute in match parse odd_protocol with PAccepted s => s | _ => store_new end.
Example odd_accepted : accepts odd_protocol odd_store.
Proof. vm_compute. reflexivity. Qed.
Definition odd (t : string) : wstore * store := made (txt t) odd_store.
Definition odd_text (t : string) : text := txt ("&config { Producer: rust; Consumer: rust; } " ++ t).

Ltac refute t :=
  exists t, odd_store, (fst (made t odd_store)), (snd (made t odd_store));
  eexists w_client, w_server, _, (fst (render (Some w_client) (Some w_server) (fst (made t odd_store)) (snd (made t odd_store)) _));
  split; [apply made_accepts; vm_compute; reflexivity|].

(** ** C63: what is left alone *)

Theorem C63_user_files_kept : forall cd pd s p f f' r c pr t base rel d,
  render cd pd s p f = (f', r) -> separate cd pd -> w_config s = Some c -> part cd pd c pr t base ->
  user_file pr t rel -> f (base ++ rel) = Some d -> f' (base ++ rel) = Some d.
Proof.
  intros cd pd s p f f' r c pr t base rel d H S C P U D.
  destruct (render_ops _ _ _ _ _ _ _ H) as [(-> & _)|(c' & C' & R)]; [exact D|].
  assert (c' = c) as -> by congruence. eapply seq_kept; [exact R | | exact D].
  intros [b o] X. apply in_all_ops in X as (pr' & t' & P' & O). split.
  - rewrite forced_rel. destruct (rel_forced o) as [q|] eqn:F; [|discriminate]. cbn [option_map]. intro K. injection K as K.
    destruct (parts_apart _ _ _ _ _ _ _ _ _ _ _ S P P' (eq_sym K)) as (-> & -> & ->). apply app_inv_head in K. subst q.
    exact (plan_forced _ _ _ _ _ _ O F U).
  - destruct o as [|file deps]; [intros []|]. cbn [merges fst snd]. intros (k & K).
    assert (N : manifest_name file).
    { pose proof (plan_wf pr' t' s p b) as W. rewrite Forall_forall in W.
      exact (W (b, Merge file deps) (proj2 (in_map_iff _ _ _) (ex_intro _ _ (conj eq_refl O)))). }
    assert (TAIL : (exists n, rel = [n] /\ ~ manifest_name n) \/ exists dir n, rel = [dir; n]).
    { destruct pr, t; cbn [user_file] in U; [destruct U as [->|(dir & n & -> & _)] | destruct U as [->|(dir & n & -> & _)] |
        destruct U as [->|(dir & n & -> & _)] | contradiction];
      try (right; eexists _, _; reflexivity); left; eexists; (split; [reflexivity|]); intros [E|E]; discriminate E. }
    destruct TAIL as [(n & -> & NN)|(dir & n & ->)].
    + apply app_inj_tail in K as [_ ->]. contradiction.
    + change [dir; n] with ([dir] ++ [n]) in K. rewrite app_assoc in K. apply app_inj_tail in K as [K _].
      assert (base ++ ([dir] ++ skipn k b) = b ++ []) as K2 by (rewrite app_assoc, K, firstn_skipn, app_nil_r; reflexivity).
      destruct (parts_apart _ _ _ _ _ _ _ _ _ _ _ S P P' K2) as (_ & _ & ->). rewrite app_nil_r in K2.
      apply (f_equal (@length text)) in K2. rewrite !app_length in K2. cbn [length] in K2. lia.
Qed.
Print Assumptions C63_user_files_kept.

(** nothing is touched outside the destinations but a manifest above them *)
Definition manifest_of (t : target) : text := match t with TRust => txt "Cargo.toml" | TTypeScript => txt "package.json" end.
Lemma plan_merge : forall pr t s p file deps, In (Merge file deps) (plan pr s p t) -> file = manifest_of t.
Proof.
  intros pr t s p file deps H. remember (Merge file deps) as o eqn:E.
  destruct pr, t; cbn [plan producer_plan consumer_plan] in H;
    unfold producer_rust, consumer_rust, producer_ts, consumer_ts, ops_static, ops_ts_static, ops_consumer_static in H;
    cbv zeta in H; plan_cases H; rewrite <- H in E; try discriminate E; injection E as <- _; reflexivity.
Qed.
Theorem C63_nothing_else_touched : forall cd pd s p f f' r q, render cd pd s p f = (f', r) -> f' q <> f q ->
  exists c pr t base, w_config s = Some c /\ part cd pd c pr t base /\
    ((exists rel, q = base ++ rel /\ own_file pr t rel) \/ (exists k, q = firstn k base ++ [manifest_of t])).
Proof.
  intros cd pd s p f f' r q H N.
  destruct (render_ops _ _ _ _ _ _ _ H) as [(-> & _)|(c & C & R)]; [contradiction|].
  assert (EX : exists x, In x (all_ops cd pd s p c) /\ (written x = Some q \/ merges x q)).
  { assert (D : forall x, {written x = Some q} + {written x <> Some q}).
    { intro x. destruct (written x) as [w|]; [|right; discriminate].
      destruct (fpath_dec w q) as [->|K]; [left; reflexivity | right; congruence]. }
    assert (M : forall x, merges x q \/ ~ merges x q).
    { intros [b [|file deps]]; [right; intros []|]. cbn [merges fst snd].
      destruct (split_last q) as [->|(r0 & t0 & ->)]; [right; intros (k & K); destruct (firstn k b); discriminate|].
      destruct (text_dec t0 file) as [->|T]; [|right; intros (k & K); apply app_inj_tail in K as [_ K]; contradiction].
      destruct (fpath_dec r0 (firstn (length r0) b)) as [E|E].
      - left. exists (length r0). rewrite E at 1. reflexivity.
      - right. intros (k & K). apply app_inj_tail in K as [K _]. apply E. rewrite K, firstn_length.
        destruct (Nat.le_gt_cases k (length b)) as [L|L].
        + rewrite Nat.min_l by exact L. reflexivity.
        + rewrite Nat.min_r by lia. rewrite firstn_all. apply firstn_all2. lia. }
    assert (G : forall l, (exists x, In x l /\ (written x = Some q \/ merges x q)) \/
                          forall x, In x l -> written x <> Some q /\ ~ merges x q).
    { induction l as [|y l IH]; [right; intros x []|].
      destruct (D y) as [Y|Y]; [left; exists y; split; [left; reflexivity | left; exact Y]|].
      destruct (M y) as [Z|Z]; [left; exists y; split; [left; reflexivity | right; exact Z]|].
      destruct IH as [(x & X & IH)|IH]; [left; exists x; split; [right; exact X | exact IH]|].
      right. intros x [<-|X]; [split; assumption | apply IH; exact X]. }
    destruct (G (all_ops cd pd s p c)) as [E|E]; [exact E|]. exfalso. apply N. eapply seq_other; [exact R | exact E]. }
  destruct EX as ([b o] & X & E). apply in_all_ops in X as (pr & t & P & O). exists c, pr, t, b. split; [exact C|]. split; [exact P|].
  destruct E as [E|E].
  - left. rewrite written_rel in E. destruct (rel_written o) as [rel|] eqn:W; [|discriminate]. injection E as <-.
    exists rel. split; [reflexivity | exact (plan_written _ _ _ _ _ _ O W)].
  - right. destruct o as [|file deps]; [contradiction|]. destruct E as (k & E). exists k.
    rewrite <- (plan_merge _ _ _ _ _ _ O). exact E.
Qed.
Print Assumptions C63_nothing_else_touched.

(** the chat example: implementations written by the user survive, and a missing
    one is created *)
Example C63_example : exists c, w_config (fst chat) = Some c /\ part (Some w_client) (Some w_server) c true TRust w_server /\
  user_file true TRust [txt "responses"; txt "users_request.rs"] /\
  chat_files (w_server ++ [txt "responses"; txt "users_request.rs"]) = Some (DUser 2) /\
  w_files (w_server ++ [txt "responses"; txt "messages_request.rs"]) = None /\
  chat_files (w_server ++ [txt "responses"; txt "messages_request.rs"]) =
    Some (DResponse (txt "Messages::Request") (Some (txt "Messages::Err")) (ROne (txt "Messages::Response"))).
Proof.
  eexists. split; [vm_compute; reflexivity|]. split; [split; [left; reflexivity | eexists; split; reflexivity]|].
  split; [right; eexists _, _; split; [reflexivity|]; split; [right; left; reflexivity | discriminate]|].
  split; [vm_compute; reflexivity|]. split; vm_compute; reflexivity.
Qed.

(** the implementation of an event called [Mod] is the folder's [mod.rs], which
    is generated *)
Theorem C63_entity_mod_refuted : exists t p s p' cd pd f f', wf_accepts t p s p' /\
  render (Some cd) (Some pd) s p' f = (f', Ok tt) /\
  (exists e, In e (w_events s) /\ ev_ref e = Some (txt "Mod")) /\
  f (pd ++ [txt "events"; rs (module_name (txt "Mod"))]) = Some (DUser 1) /\
  f' (pd ++ [txt "events"; rs (module_name (txt "Mod"))]) <> Some (DUser 1).
Proof.
  set (t := odd_text "@Mod { > M; } ").
  exists t, odd_store, (fst (made t odd_store)), (snd (made t odd_store)), w_client, w_server,
    (upd w_files (w_server ++ [txt "events"; txt "mod.rs"]) (DUser 1)). eexists.
  split; [apply made_accepts; vm_compute; reflexivity|]. split; [apply render_pair; vm_compute; reflexivity|].
  split; [eexists; split; [left; reflexivity | vm_compute; reflexivity]|]. split; [vm_compute; reflexivity|].
  vm_compute. discriminate.
Qed.
Print Assumptions C63_entity_mod_refuted.

(** generating both sides into one folder destroys the beacons' implementations *)
Theorem C63_shared_destination_refuted : exists t p s p' d f f' b, wf_accepts t p s p' /\
  render (Some d) (Some d) s p' f = (f', Ok tt) /\ In b (w_beacons s) /\
  f (d ++ [txt "beacons"; ts_file (bc_ref b)]) = Some (DUser 1) /\
  f' (d ++ [txt "beacons"; ts_file (bc_ref b)]) <> Some (DUser 1).
Proof.
  set (t := txt "&config { Producer: typescript; Consumer: typescript; } @beacons { > A.Ping; } ").
  exists t, odd_store, (fst (made t odd_store)), (snd (made t odd_store)), w_client,
    (upd (upd (fun _ => None) [txt "w"; txt "package.json"] (DManifest 0 [])) (w_client ++ [txt "beacons"; txt "a.ping.ts"]) (DUser 1)).
  eexists. exists (mkBroadcast (txt "A.Ping") false).
  split; [apply made_accepts; vm_compute; reflexivity|]. split; [apply render_pair; vm_compute; reflexivity|].
  split; [vm_compute; left; reflexivity|]. split; [vm_compute; reflexivity|].
  vm_compute. discriminate.
Qed.
Print Assumptions C63_shared_destination_refuted.

(** ** C64: the module tree is closed *)

Theorem C64_declared_modules_exist : forall cd pd s p f f' u c pr base, render cd pd s p f = (f', Ok u) ->
  separate cd pd -> w_config s = Some c -> part cd pd c pr TRust base ->
  forall dir, In dir (module_folders pr) ->
  exists d, f' (base ++ dir ++ [txt "mod.rs"]) = Some d /\ forall m, In m (declares d) -> module_file f' pr base dir m.
Proof.
  intros cd pd s p f f' u c pr base H S C P dir D.
  destruct (render_part _ _ _ _ _ _ _ _ _ _ _ H S C P) as (f0 & f1 & R & A).
  assert (X : exists d, f1 (base ++ dir ++ [txt "mod.rs"]) = Some d /\ forall m, In m (declares d) -> module_file f1 pr base dir m).
  { destruct pr; [exact (producer_modules _ _ _ _ _ _ R dir D) | exact (consumer_modules _ _ _ _ _ _ R dir D)]. }
  destruct X as (d & E & M). exists d. split.
  - rewrite A; [exact E|]. destruct dir; discriminate.
  - intros m I. specialize (M m I). unfold module_file in *. destruct (snd m) as [q|].
    + destruct M as (dir' & Q & M1 & M2). exists dir'. split; [exact Q|]. split; [exact M1|]. rewrite A; [exact M2|].
      subst q. destruct dir'; discriminate.
    + destruct M as [M|[M1 M2]]; [left; rewrite A; [exact M|]; destruct dir; discriminate | right].
      split; [exact M1|]. rewrite A; [exact M2|]. destruct dir; discriminate.
Qed.
Print Assumptions C64_declared_modules_exist.

(** the modules the handlers and emitters call are the ones declared for the
    user's implementations *)
Theorem C64_implementations_declared : forall cd pd s p f f' u c base, render cd pd s p f = (f', Ok u) ->
  separate cd pd -> w_config s = Some c -> part cd pd c true TRust base ->
  forall impl_dir user_dir, In (impl_dir, user_dir) [("handlers", "responses"); ("emitters", "events"); ("beacons", "beacons")]%string ->
  exists a b, f' (base ++ [impl; txt impl_dir; txt "mod.rs"]) = Some a /\ f' (base ++ [txt user_dir; txt "mod.rs"]) = Some b /\
    forall m, In m (declares a) <-> In m (declares b).
Proof.
  intros cd pd s p f f' u c base H S C P a b I.
  destruct (render_part _ _ _ _ _ _ _ _ _ _ _ H S C P) as (f0 & f1 & R & A).
  destruct (producer_final _ _ _ _ _ _ R) as (rm & em & main & _ & _ & _ & _ & _ & F3 & F4 & F5 & F6 & F7 & F8 & _).
  cbn [In] in I. destruct I as [E|[E|[E|[]]]]; injection E as <- <-.
  - exists (DMods "handlers" rm), (DMods "responses" rm). rewrite !A by discriminate. split; [exact F3|]. split; [exact F4|].
    intro m. reflexivity.
  - exists (DMods "emitters" (em ++ default_modules)), (DMods "events" (default_modules ++ em)). rewrite !A by discriminate.
    split; [exact F5|]. split; [exact F6|]. intro m. cbn [declares]. rewrite !map_app, !in_app_iff. tauto.
  - eexists _, _. rewrite !A by discriminate. split; [exact F7|]. split; [exact F8|]. intro m. reflexivity.
Qed.
Print Assumptions C64_implementations_declared.

Example C64_example : exists d, chat_files (w_server ++ [txt "events"; txt "mod.rs"]) = Some d /\
  In (txt "serverevents_userkickoff", None) (declares d) /\
  chat_files (w_server ++ [txt "events"; txt "serverevents_userkickoff.rs"]) <> None.
Proof. eexists. split; [vm_compute; reflexivity|]. split; [vm_compute; tauto | vm_compute; discriminate]. Qed.

(** with one destination for both sides the client is lost *)
Theorem C64_shared_destination_refuted : exists t p s p' d f f', wf_accepts t p s p' /\
  render (Some d) (Some d) s p' f = (f', Ok tt) /\
  f' (d ++ [impl; txt "consumer"; txt "mod.rs"]) = Some (DMods "consumer" [txt "identification"]).
Proof.
  exists chat_workflow, chat_store, (fst chat), (snd chat), w_client, w_files. eexists.
  split; [apply chat_rendered|]. split; [apply render_pair; vm_compute; reflexivity|]. vm_compute. reflexivity.
Qed.
Print Assumptions C64_shared_destination_refuted.

(** ** C65: generating again *)

Theorem C65_idempotent : forall cd pd s p f f1, render cd pd s p f = (f1, Ok tt) ->
  exists f2, render cd pd s p f1 = (f2, Ok tt) /\ forall q, f2 q = f1 q.
Proof.
  intros cd pd s p f f1 H. destruct (render_ops _ _ _ _ _ _ _ H) as [(_ & e & K)|(c & C & R)]; [discriminate|].
  destruct (seq_idempotent _ _ _ _ (all_wf cd pd s p c) R) as (f2 & R2 & E). exists f2. split; [|exact E].
  destruct (classic_dest cd (cf_consumer c)) as [A|A].
  - destruct (classic_dest pd (cf_producer c)) as [B|B].
    + rewrite (render_as_seq cd pd s p f1 c C A B). exact R2.
    + destruct (render_refused cd pd s p f) as (e & E2); [right; exists c; split; [exact C | right; exact B]|]. congruence.
  - destruct (render_refused cd pd s p f) as (e & E2); [right; exists c; split; [exact C | left; exact A]|]. congruence.
Qed.
Print Assumptions C65_idempotent.

Definition rel_kept (o : op) : option fpath := match o with Put true (Ok q) _ => Some q | _ => None end.
Lemma plan_kept : forall pr t s p o q, In o (plan pr s p t) -> rel_written o = Some q -> rel_forced o = None ->
  user_file pr t q \/ exists o', In o' (plan pr s p t) /\ rel_forced o' = Some q.
Proof.
  intros pr t s p o q H F0 N0.
  assert (F : rel_kept o = Some q) by (destruct o as [[|] [w|e|] body|file deps]; cbn [rel_written rel_forced rel_kept] in *; congruence).
  clear F0 N0.
  assert (FO : forall dir file names, q = [txt dir; file] -> In dir names ->
    (folder names q \/ q = [txt dir; txt "mod.rs"])).
  { intros dir file names -> D. destruct (text_dec file (txt "mod.rs")) as [->|K]; [right; reflexivity | left].
    exists (txt dir), file. split; [reflexivity|]. split; [apply in_map; exact D | exact K]. }
  assert (OPS : forall o', In o' (plan pr s p t) -> rel_forced o' = Some q -> exists o', In o' (plan pr s p t) /\ rel_forced o' = Some q)
    by (intros o' A B; exists o'; split; assumption).
  destruct pr, t; cbn [user_file].
  - cut (folder ["events"; "responses"; "beacons"]%string q \/ q = [txt "context.rs"] \/
         q = [txt "events"; txt "mod.rs"] \/ q = [txt "responses"; txt "mod.rs"] \/ q = [txt "beacons"; txt "mod.rs"]).
    { intros [K|[K|[K|[K|K]]]].
      - left. right. exact K.
      - left. left. exact K.
      - right. apply (OPS (op_event_impl_mod (w_events s))); [|subst q; reflexivity]. unfold plan, producer_plan, producer_rust.
        do 4 (apply in_app_iff; right). apply in_app_iff. left. cbn [In]. tauto.
      - right. apply (OPS (op_responses_mod (w_requests s))); [|subst q; reflexivity]. unfold plan, producer_plan, producer_rust.
        do 1 (apply in_app_iff; right). apply in_app_iff. left. cbn [In]. tauto.
      - right. apply (OPS (op_beacon_impl_mod (w_beacons s))); [|subst q; reflexivity]. unfold plan, producer_plan, producer_rust.
        do 4 (apply in_app_iff; right). apply in_app_iff. left. cbn [In]. tauto. }
    clear OPS. cbn [plan producer_plan] in H.
    assert (D : forall dir file, q = [txt dir; file] -> In dir ["events"; "responses"; "beacons"]%string ->
      folder ["events"; "responses"; "beacons"]%string q \/ q = [txt "context.rs"] \/
      q = [txt "events"; txt "mod.rs"] \/ q = [txt "responses"; txt "mod.rs"] \/ q = [txt "beacons"; txt "mod.rs"]).
    { intros dir file E I. destruct (FO dir file _ E I) as [K|K]; [left; exact K|]. cbn [In] in I.
      destruct I as [<-|[<-|[<-|[]]]]; tauto. }
    plan_all H F; cbn [rel_kept] in F; try discriminate F; injection F as F;
      first [right; left; symmetry; exact F | eapply D; [symmetry; exact F | cbn [In]; tauto]].
  - clear OPS FO. left. cbn [plan producer_plan] in H. plan_all H F; cbn [rel_kept] in F; try discriminate F; injection F as F;
      first [left; symmetry; exact F | right; eexists _, _; split; [symmetry; exact F | cbn [map In]; tauto]].
  - cut (folder ["events"; "broadcasts"]%string q \/ q = [txt "context.rs"] \/
         q = [txt "events"; txt "mod.rs"] \/ q = [txt "broadcasts"; txt "mod.rs"]).
    { intros [K|[K|[K|K]]].
      - left. right. exact K.
      - left. left. exact K.
      - right. apply (OPS (Put false (Ok (in_dir ["events"]%string (txt "mod.rs"))) (Ok (DMods "events" consumer_events))));
          [|subst q; reflexivity]. unfold plan, consumer_plan, consumer_rust. cbv zeta.
        do 2 (apply in_app_iff; right). apply in_app_iff. left. unfold ops_consumer_static. apply in_app_iff. right. left. reflexivity.
      - right. apply (OPS (op_broadcast_mod (all_broadcasts s))); [|subst q; reflexivity]. unfold plan, consumer_plan, consumer_rust.
        cbv zeta. apply in_app_iff. right. apply in_app_iff. left. left. reflexivity. }
    clear OPS. cbn [plan consumer_plan] in H.
    assert (D : forall dir file, q = [txt dir; file] -> In dir ["events"; "broadcasts"]%string ->
      folder ["events"; "broadcasts"]%string q \/ q = [txt "context.rs"] \/
      q = [txt "events"; txt "mod.rs"] \/ q = [txt "broadcasts"; txt "mod.rs"]).
    { intros dir file E I. destruct (FO dir file _ E I) as [K|K]; [left; exact K|]. cbn [In] in I.
      destruct I as [<-|[<-|[]]]; tauto. }
    plan_all H F; cbn [rel_kept] in F; try discriminate F; injection F as F;
      first [right; left; symmetry; exact F | eapply D; [symmetry; exact F | cbn [In]; tauto]].
  - exfalso. cbn [plan consumer_plan] in H. plan_all H F.
Qed.

(** what is generated depends on the workflow and the protocol only: whatever was
    there before, a file that is neither the user's nor a manifest ends up the
    same, or is not touched at all *)
Theorem C65_stale_files_irrelevant : forall cd pd s p f f' g g' c pr t base rel,
  render cd pd s p f = (f', Ok tt) -> render cd pd s p g = (g', Ok tt) -> separate cd pd ->
  w_config s = Some c -> part cd pd c pr t base -> ~ user_file pr t rel ->
  (forall r n, rel = r ++ [n] -> ~ manifest_name n) -> rel <> [] ->
  f' (base ++ rel) = g' (base ++ rel) \/ (f' (base ++ rel) = f (base ++ rel) /\ g' (base ++ rel) = g (base ++ rel)).
Proof.
  intros cd pd s p f f' g g' c pr t base rel H H' S C P U M NE.
  destruct (render_ops _ _ _ _ _ _ _ H) as [(_ & e & K)|(c1 & C1 & R)]; [discriminate|].
  destruct (render_ops _ _ _ _ _ _ _ H') as [(_ & e & K)|(c2 & C2 & R')]; [discriminate|].
  assert (c1 = c) as -> by congruence. assert (c2 = c) as -> by congruence. clear C1 C2 H H'.
  set (q := base ++ rel).
  assert (MN : forall x, In x (all_ops cd pd s p c) -> ~ merges x q).
  { intros [b o] X K. pose proof (all_wf cd pd s p c) as W. rewrite Forall_forall in W. specialize (W _ X).
    destruct o as [|file deps]; [exact K|]. cbn [merges wf_op fst snd] in *. destruct K as (k & K).
    destruct (split_last rel) as [->|(r & n & E)]; [contradiction|]. unfold q in K. rewrite E, app_assoc in K.
    apply app_inj_tail in K as [_ ->]. exact (M r file E W). }
  assert (DEC : (exists o, In o (plan pr s p t) /\ rel_forced o = Some rel) \/
                forall o, In o (plan pr s p t) -> rel_forced o <> Some rel).
  { generalize (plan pr s p t). induction l as [|o l IH]; [right; intros o []|].
    destruct (rel_forced o) as [w|] eqn:E.
    - destruct (fpath_dec w rel) as [->|D]; [left; exists o; split; [left; reflexivity | exact E]|].
      destruct IH as [(x & X & IH)|IH]; [left; exists x; split; [right; exact X | exact IH]|].
      right. intros x [<-|X]; [congruence | apply IH; exact X].
    - destruct IH as [(x & X & IH)|IH]; [left; exists x; split; [right; exact X | exact IH]|].
      right. intros x [<-|X]; [congruence | apply IH; exact X]. }
  destruct DEC as [(o & O & F)|DEC].
  - left. pose proof (all_wf cd pd s p c) as W.
    assert (X : In (base, o) (all_ops cd pd s p c)) by (apply in_all_ops; exists pr, t; split; assumption).
    assert (B : forall b k r y, In (b, Put k (Ok r) y) (all_ops cd pd s p c) -> exists d, k = true \/ y = Ok d).
    { intros b [|] r y Y; [exists (DUser 0); left; reflexivity|].
      destruct (seq_bodies _ _ _ _ _ _ _ R Y) as (d & D). exists d. right. exact D. }
    assert (FQ : forced (base, o) = Some q) by (rewrite forced_rel, F; reflexivity).
    (* the manifests need not agree, but they do not matter here *)
    assert (PATH : forall e l v, (forall x, In x l -> ~ merges x q) -> fold_left (effect e q) l v = fold_left (effect f q) l v).
    { intros e l. induction l as [|x l IH]; intros v A; [reflexivity|]. cbn [fold_left].
      assert (effect e q v x = effect f q v x) as ->.
      { destruct x as [b [k d y|file deps]]; [reflexivity|]. unfold effect. cbn [fst snd].
        assert (NO : forall h, match manifest h file b (length b) with Some m => peqb m q | None => false end = false).
        { intro h. destruct (manifest h file b (length b)) as [m|] eqn:E; [|reflexivity]. apply manifest_at in E as [(j & ->) _].
          destruct (peqb _ q) eqn:PE; [|reflexivity]. apply peqb_iff in PE.
          exfalso. apply (A (b, Merge file deps) (or_introl eq_refl)). cbn [merges fst snd]. exists j. symmetry. exact PE. }
        pose proof (NO e) as N1. pose proof (NO f) as N2.
        destruct (manifest e file b (length b)), (manifest f file b (length b)); rewrite ?N1, ?N2; reflexivity. }
      apply IH. intros y Y. apply A. right. exact Y. }
    destruct (forced_const f q _ W _ X FQ B) as (d & D).
    rewrite (seq_effect _ _ _ _ f q W R (same_refl f)), (seq_effect _ _ _ _ g q W R' (same_refl g)).
    rewrite (PATH g _ _ MN), !D. reflexivity.
  - right. assert (UN : forall x, In x (all_ops cd pd s p c) -> written x <> Some q /\ ~ merges x q).
    { intros [b o] X. split; [|apply MN; exact X]. apply in_all_ops in X as (pr' & t' & P' & O).
      rewrite written_rel. destruct (rel_written o) as [w|] eqn:E; [|discriminate]. cbn [option_map]. intro K. injection K as K.
      destruct (parts_apart _ _ _ _ _ _ _ _ _ _ _ S P P' (eq_sym K)) as (-> & -> & ->). apply app_inv_head in K. subst w.
      destruct (rel_forced o) as [w|] eqn:FF.
      - assert (w = rel) as -> by (destruct o as [[|] [?|?|] ?|? ?]; cbn [rel_forced rel_written] in *; congruence).
        exact (DEC o O FF).
      - destruct (plan_kept _ _ _ _ _ _ O E FF) as [K|(o' & O' & F')]; [exact (U K) | exact (DEC o' O' F')]. }
    split; [exact (seq_other _ _ _ _ q R UN) | exact (seq_other _ _ _ _ q R' UN)].
Qed.
Print Assumptions C65_stale_files_irrelevant.

(** a stale generated file is replaced *)
Example C65_example : 
  let g := upd w_files (w_server ++ [impl; txt "handlers"; txt "mod.rs"]) (DMods "handlers" [txt "old"]) in
  snd (render (Some w_client) (Some w_server) (fst chat) (snd chat) g) = Ok tt /\
  fst (render (Some w_client) (Some w_server) (fst chat) (snd chat) g) (w_server ++ [impl; txt "handlers"; txt "mod.rs"]) =
  chat_files (w_server ++ [impl; txt "handlers"; txt "mod.rs"]).
Proof. split; vm_compute; reflexivity. Qed.

(** ** C66: an accepted workflow can be generated *)

(** a reference that names a struct, through groups that are told apart by name *)
Definition names_struct (p : store) (r : text) : Prop := struct_path p 0 (split_dots r).
Definition groups_distinct (p : store) : Prop := forall g g', In g (groups p) -> In g' (groups p) ->
  g_name g = g_name g' -> g_parent g = g_parent g' -> g_id g = g_id g'.
(** the nearest manifest above [base] can be read *)
Definition has_manifest (f : fs) (file : text) (base : fpath) : Prop :=
  exists k rest deps, k < length base /\ f (firstn (S k) base ++ [file]) = Some (DManifest rest deps) /\
    forall j, k < j < length base -> f (firstn (S j) base ++ [file]) = None.

Theorem C66_renderable_partial : forall t p s p' cd pd f c, wf_accepts t p s p' -> w_config s = Some c ->
  (forall x, In x (w_requests s) -> rq_actions x <> []) ->
  (forall k, cf_self c = Some k \/ cf_assigned c = Some k -> names_struct p' k) -> groups_distinct p' ->
  (forall pr tg base, part (Some cd) (Some pd) c pr tg base -> has_manifest f (manifest_of tg) base) ->
  exists f', render (Some cd) (Some pd) s p' f = (f', Ok tt).
Proof.
  intros t p s p' cd pd f c H C A K G M.
  destruct (C24_complete t p s p' H) as (Q1 & Q2 & Q3).
  assert (CP : complete s p').
  { constructor.
    - intros r R. destruct (Q1 r R) as (N1 & N2 & N3). specialize (N2 (A r R)).
      destruct (rq_ref r) as [q|]; [|contradiction]. destruct (rq_err r) as [e|]; [|contradiction].
      pose proof (A r R) as AA. destruct (rq_actions r) as [|a l] eqn:L; [contradiction|]. exists q, e, a.
      repeat (split; [reflexivity|]). intros b B. destruct (N3 b B) as (B1 & B2). split.
      + destruct (ac_resp b) as [x|]; [exists x; reflexivity | contradiction].
      + intro LE. specialize (B2 LE). destruct (ac_concl b) as [x|]; [exists x; reflexivity | contradiction].
    - intros e E. destruct (Q2 e E) as (N1 & _). destruct (ev_ref e) as [q|]; [exists q; reflexivity | contradiction].
    - destruct (Q3 c C) as (N1 & N2 & _). destruct (cf_self c) as [k|] eqn:S1; [|contradiction].
      destruct (cf_assigned c) as [a|] eqn:S2; [|contradiction].
      destruct (struct_at_path p' 0 (split_dots k) G (K k (or_introl eq_refl))) as (x & X).
      destruct (struct_at_path p' 0 (split_dots a) G (K a (or_intror eq_refl))) as (y & Y).
      exists c, k, a, x, y. repeat split; assumption. }
  rewrite (render_as_seq (Some cd) (Some pd) s p' f c C) by discriminate.
  apply seq_succeeds; [apply (all_wf (Some cd) (Some pd) s p' c)|].
  intros [b o] X. change (In (b, o) (all_ops (Some cd) (Some pd) s p' c)) in X. apply in_all_ops in X as (pr & tg & P & O).
  pose proof (plan_able pr tg s p' o CP O) as AB. destruct o as [keep dest body|file deps]; [exact AB|].
  cbn [op_able fst snd]. rewrite (plan_merge _ _ _ _ _ _ O). destruct (M pr tg b P) as (k & rest & dl & L & F & J).
  exists (firstn (S k) b ++ [manifest_of tg]). split.
  - apply manifest_found; [exact L | lia | congruence | exact J].
  - rewrite F. reflexivity.
Qed.
Print Assumptions C66_renderable_partial.

Example C66_example : exists c, w_config (fst chat) = Some c /\
  (forall x, In x (w_requests (fst chat)) -> rq_actions x <> []) /\
  (forall k, cf_self c = Some k \/ cf_assigned c = Some k -> names_struct (snd chat) k) /\
  groups_distinct (snd chat) /\
  (forall pr tg base, part (Some w_client) (Some w_server) c pr tg base -> has_manifest w_files (manifest_of tg) base).
Proof.
  eexists. split; [vm_compute; reflexivity|]. split; [|split; [|split]].
  - intros x X. vm_compute in X. repeat (destruct X as [<-|X]; [discriminate|]). contradiction.
  - assert (D : forall g x, In g (groups (snd chat)) -> In x (structs (snd chat)) -> g_parent g = 0 -> s_parent x = g_id g ->
      struct_path (snd chat) 0 [g_name g; s_name x]).
    { intros g x G X E1 E2. rewrite <- E1. apply SP_in; [exact G|]. rewrite <- E2. apply SP_here. exact X. }
    intros k [E|E]; injection E as <-; unfold names_struct.
    + apply (D (nth 0 (groups (snd chat)) (mkGroup 0 0 [] [] [] [])) (nth 0 (structs (snd chat)) (mkStruct 0 0 [] [] [])));
        [apply nth_In; vm_compute; lia | apply nth_In; vm_compute; lia | vm_compute; reflexivity | vm_compute; reflexivity].
    + apply (D (nth 0 (groups (snd chat)) (mkGroup 0 0 [] [] [] [])) (nth 1 (structs (snd chat)) (mkStruct 0 0 [] [] [])));
        [apply nth_In; vm_compute; lia | apply nth_In; vm_compute; lia | vm_compute; reflexivity | vm_compute; reflexivity].
  - assert (CHK : forallb (fun g => forallb (fun g' => negb (teqb (g_name g) (g_name g') && (g_parent g =? g_parent g')) || (g_id g =? g_id g'))
        (groups (snd chat))) (groups (snd chat)) = true) by (vm_compute; reflexivity).
    intros g g' I I' N P. rewrite forallb_forall in CHK. specialize (CHK g I). rewrite forallb_forall in CHK. specialize (CHK g' I').
    rewrite (proj2 (teqb_iff _ _) N), (proj2 (Nat.eqb_eq _ _) P) in CHK. cbn [andb negb orb] in CHK. apply Nat.eqb_eq. exact CHK.
  - intros pr tg base (T & d & D & B). exists 0, 7, [(txt "serde", txt "1.0"); (txt "log", txt "0.3")].
    destruct pr; destruct T as [<-|[]]; injection D as <-; subst base.
    + split; [vm_compute; lia|]. split; [vm_compute; reflexivity|]. intros j J. vm_compute in J.
      destruct j as [|[|j]]; [lia | vm_compute; reflexivity | lia].
    + split; [vm_compute; lia|]. split; [vm_compute; reflexivity|]. intros j J. vm_compute in J.
      destruct j as [|[|j]]; [lia | vm_compute; reflexivity | lia].
Qed.

(** a request declared without actions is accepted, but the generation stops half
    way *)
Theorem C66_no_actions_refuted : exists t p s p' cd pd f f' e q, wf_accepts t p s p' /\
  render (Some cd) (Some pd) s p' f = (f', Err e) /\ f q = None /\ f' q <> None.
Proof.
  set (t := odd_text "A.Ping; ").
  exists t, odd_store, (fst (made t odd_store)), (snd (made t odd_store)), w_client, w_server, w_files.
  eexists. exists ENoError, (w_client ++ [txt "broadcasts"; txt "mod.rs"]).
  split; [apply made_accepts; vm_compute; reflexivity|]. split; [apply render_pair; vm_compute; reflexivity|].
  split; [vm_compute; reflexivity | vm_compute; discriminate].
Qed.
Print Assumptions C66_no_actions_refuted.

(** so does a key that is an enum; by then nearly everything is written *)
Theorem C66_enum_key_refuted : exists t p s p' cd pd f f', wf_accepts t p s p' /\
  render (Some cd) (Some pd) s p' f = (f', Err ENoKey) /\
  f (cd ++ [impl; txt "consumer"; txt "mod.rs"]) = None /\ f' (cd ++ [impl; txt "consumer"; txt "mod.rs"]) <> None.
Proof.
  set (t := txt "&config { SelfKey: A.K; Producer: rust; Consumer: rust; } ").
  exists t, odd_store, (fst (made t odd_store)), (snd (made t odd_store)), w_client, w_server, w_files. eexists.
  split; [apply made_accepts; vm_compute; reflexivity|]. split; [apply render_pair; vm_compute; reflexivity|].
  split; [vm_compute; reflexivity | vm_compute; discriminate].
Qed.
Print Assumptions C66_enum_key_refuted.

(** ** C67: the client reports the conclusion the server chose *)

(** Rust's [match]: the first arm whose pattern fits *)
Fixpoint first_arm (arms : list (list text * text)) (message : list text) : option text :=
  match arms with
  | [] => None
  | (p, v) :: arms => if peqb p message then Some v else first_arm arms message
  end.

(** the answers of a request can be told apart *)
Definition answers_distinct (r : wrequest) : Prop :=
  NoDup (map ac_resp (rq_actions r)) /\ forall a, In a (rq_actions r) -> ac_resp a <> rq_err r.

Lemma first_arm_app : forall a b m, first_arm (a ++ b) m = match first_arm a m with Some v => Some v | None => first_arm b m end.
Proof.
  intros a b m. induction a as [|[p v] a IH]; [reflexivity|]. cbn [app first_arm]. destruct (peqb p m); [reflexivity | exact IH].
Qed.

Lemma arms_first : forall (g : waction -> res (list text * text) rerr) (v : waction -> text) l arms,
  (forall a b, In a l -> g a = Ok b -> exists x, ac_resp a = Some x /\ b = (split_dots x, v a)) ->
  map_res g l = Ok arms -> NoDup (map ac_resp l) ->
  (forall a x, In a l -> ac_resp a = Some x -> first_arm arms (split_dots x) = Some (v a)) /\
  (forall m, (forall a x, In a l -> ac_resp a = Some x -> split_dots x <> m) -> first_arm arms m = None).
Proof.
  intros g v l. induction l as [|a l IH]; intros arms G E N; cbn [map_res] in E.
  - injection E as <-. split; [intros a x [] | reflexivity].
  - apply bind_ok in E as (b & B & E). apply bind_ok in E as (bs & BS & E). injection E as <-.
    destruct (G a b (or_introl eq_refl) B) as (x0 & X0 & ->). cbn [map] in N. inversion N as [|? ? N1 N2]; subst.
    destruct (IH bs (fun a' b' I => G a' b' (or_intror I)) BS N2) as [I1 I2]. cbn [first_arm]. split.
    + intros a' x [<-|I] X.
      * assert (x = x0) as -> by congruence. rewrite (proj2 (peqb_iff _ _) eq_refl). reflexivity.
      * destruct (peqb (split_dots x0) (split_dots x)) eqn:P; [|exact (I1 a' x I X)].
        apply peqb_iff in P. apply WfServed.split_inj in P. subst x0. exfalso. apply N1. rewrite X0, <- X. apply in_map. exact I.
    + intros m M. destruct (peqb (split_dots x0) m) eqn:P; [|apply I2; intros a' x I X; exact (M a' x (or_intror I) X)].
      apply peqb_iff in P. exfalso. exact (M a x0 (or_introl eq_refl) X0 P).
Qed.

Lemma request_arms_spec : forall r z, request_arms r = Ok z -> answers_distinct r ->
  (exists q, rq_ref r = Some q /\ ca_method z = module_name q /\ ca_request z = rust_path q) /\
  (forall a x, In a (rq_actions r) -> ac_resp a = Some x ->
     first_arm (ca_arms z) (split_dots x) = Some (match ac_concl a with Some c => c | None => txt "Response" end)) /\
  (forall e, rq_err r = Some e -> first_arm (ca_arms z) (split_dots e) = Some (txt "Err")).
Proof.
  intros r z H [N D]. unfold request_arms in H. apply bind_ok in H as (q & Q & H). apply bind_ok in H as (arms & A & H).
  apply bind_ok in H as (e & E & H). injection H as <-. cbn [ca_method ca_request ca_arms].
  unfold get_request, need in Q. destruct (rq_ref r) as [q'|]; [|discriminate]. injection Q as ->.
  unfold get_err, need in E. destruct (rq_err r) as [e'|] eqn:ER; [|discriminate]. injection E as ->.
  match type of A with map_res ?g ?l = _ => 
    destruct (arms_first g (fun a => match ac_concl a with Some c => c | None => txt "Response" end) l arms) as [A1 A2] end;
    [|exact A|exact N|].
  - intros a b I B. apply bind_ok in B as (x & X & B). injection B as <-. unfold get_action_response, need in X.
    destruct (ac_resp a) as [x'|]; [|discriminate]. injection X as ->. exists x. split; reflexivity.
  - split; [exists q; repeat split; reflexivity|]. split.
    + intros a x I X. rewrite first_arm_app, (A1 a x I X). reflexivity.
    + intros e' EE. injection EE as <-. rewrite first_arm_app, A2.
      * cbn [first_arm]. rewrite (proj2 (peqb_iff _ _) eq_refl). reflexivity.
      * intros a x I X K. apply WfServed.split_inj in K. subst x. exact (D a I X).
Qed.

(** of a generated Rust client, when the answers can be told apart; [exists z] is
    the method of the request *)
Theorem C67_conclusion_reported_partial : forall cd pd s p f f' u c base r, render cd pd s p f = (f', Ok u) ->
  separate cd pd -> w_config s = Some c -> part cd pd c false TRust base -> In r (w_requests s) -> answers_distinct r ->
  exists methods beacons z q, f' (base ++ [impl; txt "consumer"; txt "controller.rs"]) = Some (DController methods beacons) /\
    In z methods /\ rq_ref r = Some q /\ ca_method z = module_name q /\ ca_request z = rust_path q /\
    (forall a x, In a (rq_actions r) -> ac_resp a = Some x ->
       first_arm (ca_arms z) (split_dots x) = Some (match ac_concl a with Some c => c | None => txt "Response" end)) /\
    (forall e, rq_err r = Some e -> first_arm (ca_arms z) (split_dots e) = Some (txt "Err")).
Proof.
  intros cd pd s p f f' u c base r H S C P R D.
  destruct (render_part _ _ _ _ _ _ _ _ _ _ _ H S C P) as (f0 & f1 & RR & A).
  destruct (consumer_final _ _ _ _ _ _ RR) as (_ & _ & _ & _ & _ & _ & rq & RQ & F).
  destruct (map_res_in' _ _ _ _ _ _ RQ R) as (z & Z1 & Z2). destruct (request_arms_spec r z Z2 D) as ((q & Q1 & Q2 & Q3) & A1 & A2).
  eexists rq, _, z, q. rewrite A by discriminate. split; [exact F|]. repeat (split; [assumption|]). exact A2.
Qed.
Print Assumptions C67_conclusion_reported_partial.

(** the chat example's login has two conclusions *)
Example C67_example : exists r, In r (w_requests (fst chat)) /\ rq_ref r = Some (txt "UserLogin.Request") /\
  length (rq_actions r) = 2 /\ answers_distinct r.
Proof.
  eexists (nth 0 (w_requests (fst chat)) (request_new [])). split; [apply nth_In; vm_compute; lia|].
  split; [vm_compute; reflexivity|]. split; [vm_compute; reflexivity|]. split.
  - vm_compute. repeat constructor; cbn [In]; intuition discriminate.
  - intros a K. vm_compute in K. destruct K as [<-|[<-|[]]]; vm_compute; discriminate.
Qed.

(** the parser accepts two conclusions with one response; the client then reports
    the first one for both *)
Theorem C67_same_response_refuted : exists t p s p' cd pd f f' r a x methods beacons z, wf_accepts t p s p' /\
  render (Some cd) (Some pd) s p' f = (f', Ok tt) /\ In r (w_requests s) /\ In a (rq_actions r) /\
  ac_concl a = Some (txt "No") /\ ac_resp a = Some x /\
  f' (cd ++ [impl; txt "consumer"; txt "controller.rs"]) = Some (DController methods beacons) /\ methods = [z] /\
  first_arm (ca_arms z) (split_dots x) = Some (txt "Yes").
Proof.
  set (t := odd_text "A.Ping !A.E { (Yes > A.R) > M; (No > A.R); } ").
  exists t, odd_store, (fst (made t odd_store)), (snd (made t odd_store)), w_client, w_server, w_files. eexists.
  eexists (nth 0 (w_requests (fst (made t odd_store))) (request_new [])),
          (nth 1 (rq_actions (nth 0 (w_requests (fst (made t odd_store))) (request_new []))) action_new).
  eexists _, _, _, _.
  split; [apply made_accepts; vm_compute; reflexivity|]. split; [apply render_pair; vm_compute; reflexivity|].
  split; [apply nth_In; vm_compute; lia|]. split; [apply nth_In; vm_compute; lia|].
  split; [vm_compute; reflexivity|]. split; [vm_compute; reflexivity|]. split; [vm_compute; reflexivity|].
  split; [reflexivity|]. vm_compute. reflexivity.
Qed.
Print Assumptions C67_same_response_refuted.

(** likewise an error that is also a response is never reported as an error *)
Theorem C67_error_as_response_refuted : exists t p s p' cd pd f f' r e methods beacons z, wf_accepts t p s p' /\
  render (Some cd) (Some pd) s p' f = (f', Ok tt) /\ In r (w_requests s) /\ rq_err r = Some e /\
  f' (cd ++ [impl; txt "consumer"; txt "controller.rs"]) = Some (DController methods beacons) /\ methods = [z] /\
  first_arm (ca_arms z) (split_dots e) = Some (txt "No").
Proof.
  set (t := odd_text "A.Ping !A.E { (Yes > A.R) > M; (No > A.E); } ").
  exists t, odd_store, (fst (made t odd_store)), (snd (made t odd_store)), w_client, w_server, w_files. eexists.
  eexists (nth 0 (w_requests (fst (made t odd_store))) (request_new [])). eexists _, _, _, _.
  split; [apply made_accepts; vm_compute; reflexivity|]. split; [apply render_pair; vm_compute; reflexivity|].
  split; [apply nth_In; vm_compute; lia|]. split; [vm_compute; reflexivity|]. split; [vm_compute; reflexivity|].
  split; [reflexivity|]. vm_compute. reflexivity.
Qed.
Print Assumptions C67_error_as_response_refuted.
