(** The names in generated Rust projects, what is sent by the generated handlers
    and what happens to manifests (C26, C68-C70). *)
From Coq Require Import String Ascii NArith List Arith Lia Bool.
From Verif Require Import Bytes ProtoModel WfModel WfProofs PropProto PropWf.
From Verif Require Import RenderModel RenderProofs PropRender.
Import ListNotations.
Close Scope string_scope.
Open Scope list_scope.
Open Scope nat_scope.

(** ** Where contents come from *)

Lemma seq_from : forall l f f' r q d, run_seq l f = (f', r) -> f' q = Some d ->
  f q = Some d \/ (exists rest deps, d = DManifest rest deps) \/
  exists b k w, In (b, Put k (Ok w) (Ok d)) l /\ q = b ++ w.
Proof.
  induction l as [|[b o] l IH]; intros f f' r q d H E; cbn [run_seq] in H; [left; congruence|].
  destruct (exec b o f) as [g v] eqn:X.
  assert (STEP : g q = Some d -> f q = Some d \/ (exists rest deps, d = DManifest rest deps) \/
            exists b' k w, In (b', Put k (Ok w) (Ok d)) ((b, o) :: l) /\ q = b' ++ w).
  { intro G. destruct o as [keep dest body|file deps]; cbn [exec] in X.
    - destruct dest as [w|e|]; [|left; congruence|left; congruence].
      destruct (keep && is_some (f (b ++ w))); [left; congruence|].
      destruct body as [x|e|]; [|left; congruence|left; congruence]. injection X as <- _.
      destruct (fpath_dec (b ++ w) q) as [<-|N].
      + rewrite upd_same in G. injection G as ->. right. right. exists b, keep, w. split; [left; reflexivity | reflexivity].
      + rewrite (upd_other _ _ _ _ N) in G. left. exact G.
    - destruct (manifest f file b (length b)) as [m|]; [|left; congruence].
      destruct (f m) as [[]|]; try (left; congruence). injection X as <- _.
      destruct (fpath_dec m q) as [<-|N].
      + rewrite upd_same in G. injection G as <-. right. left. eexists _, _. reflexivity.
      + rewrite (upd_other _ _ _ _ N) in G. left. exact G. }
  destruct v as [u|e|]; [|injection H as <- _; exact (STEP E)|injection H as <- _; exact (STEP E)].
  destruct (IH g f' r q d H E) as [G|[G|(b' & k & w & I & Q)]]; [exact (STEP G) | right; left; exact G|].
  right. right. exists b', k, w. split; [right; exact I | exact Q].
Qed.

Lemma render_from : forall cd pd s p f f' u c pr t base rel d, render cd pd s p f = (f', u) -> separate cd pd ->
  w_config s = Some c -> part cd pd c pr t base -> f' (base ++ rel) = Some d ->
  f (base ++ rel) = Some d \/ (exists rest deps, d = DManifest rest deps) \/
  exists k, In (Put k (Ok rel) (Ok d)) (plan pr s p t).
Proof.
  intros cd pd s p f f' u c pr t base rel d H S C P E.
  destruct (render_ops _ _ _ _ _ _ _ H) as [(-> & _)|(c' & C' & R)]; [left; exact E|].
  assert (c' = c) as -> by congruence.
  destruct (seq_from _ _ _ _ _ _ R E) as [K|[K|(b & k & w & I & Q)]]; [left; exact K | right; left; exact K|].
  right. right. apply in_all_ops in I as (pr' & t' & P' & O).
  destruct (parts_apart _ _ _ _ _ _ _ _ _ _ _ S P P' Q) as (-> & -> & ->). apply app_inv_head in Q. subst w. exists k. exact O.
Qed.

(** a generated file that only one operation insists on *)
Lemma render_forced : forall cd pd s p f f' u c pr t base rel body, render cd pd s p f = (f', Ok u) -> separate cd pd ->
  w_config s = Some c -> part cd pd c pr t base -> rel <> [] -> In (Put false (Ok rel) body) (plan pr s p t) ->
  (forall o, In o (plan pr s p t) -> rel_forced o = Some rel -> o = Put false (Ok rel) body) ->
  exists d, body = Ok d /\ f' (base ++ rel) = Some d.
Proof.
  intros cd pd s p f f' u c pr t base rel body H S C P N I U.
  destruct (render_part _ _ _ _ _ _ _ _ _ _ _ H S C P) as (f0 & f1 & R & A). rewrite (A rel N).
  exact (run_in base pr t s p [] _ rel body f0 f1 tt eq_refl R I U).
Qed.

(** ** C26: modules do not collide *)

(** what a workflow refers to *)
Definition request_refs (s : wstore) : list text :=
  flat_map (fun r => match rq_ref r with Some q => [q] | None => [] end) (w_requests s).
Definition event_refs (s : wstore) : list text :=
  flat_map (fun e => match ev_ref e with Some q => if default_event q then [] else [q] | None => [] end) (w_events s).
Definition beacon_refs (s : wstore) : list text := map bc_ref (w_beacons s).
Definition cast_refs (s : wstore) : list text :=
  map bc_ref (flat_map (fun r => flat_map ac_bcs (rq_actions r)) (w_requests s) ++ flat_map ev_list (w_events s)).
Definition all_refs (s : wstore) : list text := request_refs s ++ event_refs s ++ beacon_refs s ++ cast_refs s.

(** keywords of Rust that can be written in lower case *)
Definition keywords : list text := map txt
  ["as"; "break"; "const"; "continue"; "crate"; "else"; "enum"; "extern"; "false"; "fn"; "for"; "if"; "impl"; "in";
   "let"; "loop"; "match"; "mod"; "move"; "mut"; "pub"; "ref"; "return"; "self"; "static"; "struct"; "super"; "trait";
   "true"; "type"; "unsafe"; "use"; "where"; "while"; "async"; "await"; "dyn"; "abstract"; "become"; "box"; "do";
   "final"; "macro"; "override"; "priv"; "typeof"; "unsized"; "virtual"; "yield"; "try"]%string.

(** references that differ in more than the case of letters, have no underscores
    and are no keywords *)
Record refs_apart (s : wstore) : Prop := mkApart {
  RA_requests : NoDup (map lower (request_refs s));
  RA_events : NoDup (map lower (event_refs s));
  RA_beacons : NoDup (map lower (beacon_refs s));
  RA_casts : forall a b, In a (cast_refs s) -> In b (cast_refs s) -> lower a = lower b -> a = b;
  RA_plain : forall a, In a (all_refs s) -> ~ In und a;
  RA_words : forall a, In a (all_refs s) -> ~ In (lower a) keywords;
  RA_default : forall a, In a (event_refs s) -> ~ In (lower a) (map txt ["connected"; "disconnected"; "error"; "ready"; "shutdown"]%string)
}.

Lemma module_lower : forall a, ~ In und (module_name a) -> module_name a = lower a.
Proof.
  intros a H. rewrite module_map in *. unfold lower. apply map_ext_in. intros c I. unfold mod_char.
  destruct (Ascii.eqb (lower_char c) dot) eqn:E; [|reflexivity]. exfalso. apply H. apply in_map_iff. exists c.
  split; [unfold mod_char; rewrite E; reflexivity | exact I].
Qed.

(** a name without underscore is only the module of a reference without dots *)
Lemma module_word : forall a w, module_name a = w -> ~ In und w -> lower a = w.
Proof. intros a w <- N. symmetry. apply module_lower. exact N. Qed.

Lemma modules_nodup : forall l, NoDup (map lower l) -> (forall a, In a l -> ~ In und a) -> NoDup (map module_name l).
Proof.
  induction l as [|a l IH]; intros N U; [constructor|]. cbn [map] in *. inversion N as [|? ? N1 N2]; subst. constructor.
  - intro K. apply in_map_iff in K as (b & E & B). apply N1. apply in_map_iff. exists b. split; [|exact B].
    apply module_inj; [apply U; right; exact B | apply U; left; reflexivity | exact E].
  - apply IH; [exact N2 | intros b B; apply U; right; exact B].
Qed.

Lemma request_modules_refs : forall s rm, request_modules (w_requests s) = Ok rm -> rm = map module_name (request_refs s).
Proof.
  intros s. unfold request_refs, request_modules. induction (w_requests s) as [|r l IH]; intros rm H; cbn [map_res] in H.
  - injection H as <-. reflexivity.
  - apply bind_ok in H as (x & X & H). apply bind_ok in H as (xs & XS & H). injection H as <-.
    apply bind_ok in X as (q & Q & X). injection X as <-. unfold get_request, need in Q.
    cbn [flat_map]. destruct (rq_ref r) as [q'|]; [|discriminate]. injection Q as ->. cbn [app map]. rewrite (IH xs XS). reflexivity.
Qed.
Lemma event_modules_refs : forall s em, event_modules (w_events s) = Ok em -> em = map module_name (event_refs s).
Proof.
  intros s. unfold event_refs, event_modules, own_events. induction (w_events s) as [|e l IH]; intros em H; cbn [filter] in H.
  - injection H as <-. reflexivity.
  - cbn [flat_map]. destruct (is_default e) eqn:D; cbn [negb] in H.
    + unfold is_default in D. destruct (ev_ref e) as [q|]; [|discriminate]. rewrite D. cbn [app]. apply IH. exact H.
    + cbn [map_res] in H. apply bind_ok in H as (x & X & H). apply bind_ok in H as (xs & XS & H). injection H as <-.
      apply bind_ok in X as (q & Q & X). injection X as <-. unfold get_reference, need in Q. unfold is_default in D.
      destruct (ev_ref e) as [q'|]; [|discriminate]. injection Q as ->. rewrite D. cbn [app map]. rewrite (IH xs XS). reflexivity.
Qed.

Lemma app_nodup1 : forall (l : list text) x, NoDup l -> ~ In x l -> NoDup (l ++ [x]).
Proof.
  intros l x N X. apply NoDup_rev in N. rewrite <- (rev_involutive (l ++ [x])), rev_app_distr. apply NoDup_rev. cbn [rev app].
  constructor; [rewrite <- in_rev; exact X | exact N].
Qed.
Lemma add_new_inv : forall l b, NoDup (map bc_ref l) -> NoDup (map bc_ref (add_new l b)).
Proof.
  intros l b N. unfold add_new. destruct (existsb _ l) eqn:E; [exact N|]. rewrite map_app. cbn [map].
  apply app_nodup1; [exact N|]. intro K. apply in_map_iff in K as (x & X & I).
  assert (existsb (fun x => teqb (bc_ref x) (bc_ref b)) l = true) as K2; [|congruence].
  apply existsb_exists. exists x. split; [exact I | apply teqb_iff; exact X].
Qed.
Lemma all_broadcasts_refs : forall s, NoDup (map bc_ref (all_broadcasts s)) /\
  forall b, In b (all_broadcasts s) -> In (bc_ref b) (cast_refs s).
Proof.
  intro s. unfold all_broadcasts, cast_refs.
  set (l := flat_map _ (w_requests s) ++ flat_map ev_list (w_events s)). clearbody l.
  assert (G : forall l acc, NoDup (map bc_ref acc) -> NoDup (map bc_ref (fold_left add_new l acc)) /\
    forall b, In b (fold_left add_new l acc) -> In (bc_ref b) (map bc_ref acc) \/ In (bc_ref b) (map bc_ref l)).
  { clear l. induction l as [|x l IH]; intros acc N; cbn [fold_left].
    - split; [exact N|]. intros b B. left. apply in_map. exact B.
    - destruct (IH (add_new acc x) (add_new_inv acc x N)) as [A B]. split; [exact A|]. intros b I.
      destruct (B b I) as [K|K]; [|right; right; exact K]. apply in_map_iff in K as (y & Y & K). rewrite <- Y.
      unfold add_new in K. destruct (existsb _ acc); [left; apply in_map; exact K|].
      apply in_app_iff in K as [K|[<-|[]]]; [left; apply in_map; exact K | right; left; reflexivity]. }
  destruct (G l [] (NoDup_nil _)) as [A B]. split; [exact A|]. intros b I. destruct (B b I) as [[]|K]. exact K.
Qed.

Lemma casts_nodup : forall (g : text -> text) s, (forall a b, In a (cast_refs s) -> In b (cast_refs s) -> g a = g b -> a = b) ->
  NoDup (map (fun b => g (bc_ref b)) (all_broadcasts s)).
Proof.
  intros g s G. destruct (all_broadcasts_refs s) as [N I]. revert N I. generalize (all_broadcasts s) as l.
  induction l as [|b l IH]; intros N I; [constructor|]. cbn [map] in *. inversion N as [|? ? N1 N2]; subst. constructor.
  - intro K. apply in_map_iff in K as (x & E & X). apply N1. apply in_map_iff. exists x. split; [|exact X].
    apply G; [apply I; right; exact X | apply I; left; reflexivity | exact E].
  - apply IH; [exact N2 | intros x X; apply I; right; exact X].
Qed.

Lemma no_und : forall w l, In w (map txt l) -> forallb (fun w => negb (existsb (Ascii.eqb und) (txt w))) l = true -> ~ In und w.
Proof.
  intros w l I F K. apply in_map_iff in I as (x & <- & X). rewrite forallb_forall in F. specialize (F x X).
  assert (existsb (Ascii.eqb und) (txt x) = true) as E by (apply existsb_exists; exists und; split; [exact K | apply Ascii.eqb_refl]).
  rewrite E in F. discriminate.
Qed.

Lemma app_nodup : forall (A : Type) (a b : list A), NoDup a -> NoDup b -> (forall x, In x a -> ~ In x b) -> NoDup (a ++ b).
Proof.
  intros A a b NA NB D. induction NA as [|x a X NA IH]; [exact NB|]. cbn [app]. constructor.
  - rewrite in_app_iff. intros [K|K]; [exact (X K) | exact (D x (or_introl eq_refl) K)].
  - apply IH. intros y Y. apply D. right. exact Y.
Qed.

Ltac const_nodup := vm_compute; repeat constructor; cbn [In]; intuition discriminate.

(** [folders] has one [mod.rs] each; the second part says that no request is lost *)
Theorem C26_modules_distinct_partial : forall cd pd s p f f' u c pr base, render cd pd s p f = (f', Ok u) ->
  separate cd pd -> w_config s = Some c -> part cd pd c pr TRust base -> refs_apart s ->
  (forall dir, In dir (module_folders pr) -> exists d, f' (base ++ dir ++ [txt "mod.rs"]) = Some d /\
     NoDup (map fst (declares d)) /\ forall m, In m (map fst (declares d)) -> ~ In m keywords) /\
  (pr = true -> exists d, f' (base ++ [impl; txt "handlers"; txt "mod.rs"]) = Some d /\
     length (declares d) = length (w_requests s)).
Proof.
  intros cd pd s p f f' u c pr base H S C P [RQ EV BC CA PL WD DF].
  destruct (render_part _ _ _ _ _ _ _ _ _ _ _ H S C P) as (f0 & f1 & R & A).
  assert (KW : forall a, In a (all_refs s) -> ~ In (module_name a) keywords).
  { intros a I K. apply (WD a I). rewrite (module_word a _ eq_refl); [exact K|].
    refine (no_und _ _ K _). vm_compute. reflexivity. }
  assert (KL : forall l, incl l (all_refs s) -> forall m, In m (map module_name l) -> ~ In m keywords).
  { intros l L m M. apply in_map_iff in M as (a & <- & I). apply KW. apply L. exact I. }
  assert (I1 : incl (request_refs s) (all_refs s)) by (intros a I; unfold all_refs; rewrite !in_app_iff; tauto).
  assert (I2 : incl (event_refs s) (all_refs s)) by (intros a I; unfold all_refs; rewrite !in_app_iff; tauto).
  assert (I3 : incl (beacon_refs s) (all_refs s)) by (intros a I; unfold all_refs; rewrite !in_app_iff; tauto).
  assert (I4 : incl (cast_refs s) (all_refs s)) by (intros a I; unfold all_refs; rewrite !in_app_iff; tauto).
  assert (M : forall (ms : list text), map fst (map (fun m => (m, @None fpath)) ms) = ms)
    by (intro ms; rewrite map_map; apply map_id).
  assert (DM : forall a, In a (event_refs s) -> ~ In (module_name a) default_modules).
  { intros a I K. apply (DF a I). rewrite (module_word a _ eq_refl); [exact K|].
    refine (no_und _ _ K _). vm_compute. reflexivity. }
  assert (DK : forall m, In m default_modules -> ~ In m keywords).
  { intros m I K. cbn [default_modules map In] in I.
    destruct I as [<-|[<-|[<-|[<-|[<-|[]]]]]]; cbn [keywords map In] in K; repeat (destruct K as [K|K]; [discriminate K|]); exact K. }
  destruct pr.
  - change (plan true s p TRust) with (producer_rust s p) in R.
    destruct (producer_final _ _ _ _ _ _ R) as (rm & em & main & RM & EM & MD & F1 & F2 & F3 & F4 & F5 & F6 & F7 & F8 & F9 & F10 & F11).
    pose proof (request_modules_refs s rm RM) as E1. pose proof (event_modules_refs s em EM) as E2.
    assert (NR : NoDup rm) by (rewrite E1; apply modules_nodup; [exact RQ | intros a I; apply PL, I1, I]).
    assert (NE : NoDup em) by (rewrite E2; apply modules_nodup; [exact EV | intros a I; apply PL, I2, I]).
    assert (NB : NoDup (map (fun b => module_name (bc_ref b)) (w_beacons s)))
      by (rewrite <- (map_map bc_ref module_name); apply modules_nodup; [exact BC | intros a I; apply PL, I3, I]).
    assert (ND : NoDup default_modules) by const_nodup.
    assert (DE : forall m, In m em -> ~ In m default_modules).
    { intros m I. rewrite E2 in I. apply in_map_iff in I as (a & <- & I). apply DM. exact I. }
    split.
    + intros dir D. rewrite A by (destruct dir; discriminate). cbn [module_folders In] in D.
      destruct D as [<-|[<-|[<-|[<-|[<-|[<-|[<-|[<-|[<-|[<-|[<-|[]]]]]]]]]]]]; cbn [app].
      * eexists. split; [exact F1|]. cbn [declares]. rewrite M. split; [const_nodup|].
        intros m [<-|[<-|[]]] K; cbn [keywords map In] in K; repeat (destruct K as [K|K]; [discriminate K|]); exact K.
      * eexists. split; [exact F2|]. rewrite (main_declares s main MD). split; [const_nodup|].
        intros m I K. cbn [main_modules map app In fst] in I.
        repeat (destruct I as [<-|I]; [cbn [keywords map In] in K; repeat (destruct K as [K|K]; [discriminate K|]); exact K|]). exact I.
      * eexists. split; [exact F3|]. cbn [declares]. rewrite M. split; [exact NR|]. rewrite E1. apply KL. exact I1.
      * eexists. split; [exact F5|]. cbn [declares]. rewrite M. split; [apply app_nodup; assumption|].
        intros m I. apply in_app_iff in I as [I|I]; [|exact (DK m I)]. rewrite E2 in I. revert m I. apply KL. exact I2.
      * eexists. split; [exact F7|]. cbn [declares]. rewrite M. split; [exact NB|]. rewrite <- (map_map bc_ref module_name). apply KL. exact I3.
      * eexists. split; [exact F11|]. cbn [declares]. rewrite M. split; [const_nodup|].
        intros m [<-|[]] K; cbn [keywords map In] in K; repeat (destruct K as [K|K]; [discriminate K|]); exact K.
      * eexists. split; [exact F10|]. split; [constructor | intros m []].
      * eexists. split; [exact F9|]. split; [constructor | intros m []].
      * eexists. split; [exact F6|]. cbn [declares]. rewrite M.
        split; [apply app_nodup; [exact ND | exact NE | intros m I K; exact (DE m K I)]|].
        intros m I. apply in_app_iff in I as [I|I]; [exact (DK m I)|]. rewrite E2 in I. revert m I. apply KL. exact I2.
      * eexists. split; [exact F4|]. cbn [declares]. rewrite M. split; [exact NR|]. rewrite E1. apply KL. exact I1.
      * eexists. split; [exact F8|]. cbn [declares]. rewrite M. split; [exact NB|]. rewrite <- (map_map bc_ref module_name). apply KL. exact I3.
    + intros _. eexists. rewrite A by discriminate. split; [exact F3|]. cbn [declares]. rewrite map_length.
      apply map_res_map in RM. apply (f_equal (@length _)) in RM. rewrite !map_length in RM. symmetry. exact RM.
  - split; [|discriminate]. change (plan false s p TRust) with (consumer_rust s p) in R.
    destruct (consumer_final _ _ _ _ _ _ R) as (F1 & F2 & F3 & F4 & F5 & F6 & _).
    assert (NC : NoDup (map (fun b => module_name (bc_ref b)) (all_broadcasts s))).
    { apply casts_nodup. intros a b I J E. apply CA; [exact I | exact J|].
      apply module_inj; [apply PL, I4, I | apply PL, I4, J | exact E]. }
    intros dir D. rewrite A by (destruct dir; discriminate). cbn [module_folders In] in D.
    destruct D as [<-|[<-|[<-|[<-|[<-|[<-|[]]]]]]]; cbn [app].
    + eexists. split; [exact F1|]. cbn [declares]. rewrite M. split; [const_nodup|].
      intros m I K. cbn [map In] in I. 
      repeat (destruct I as [<-|I]; [cbn [keywords map In] in K; repeat (destruct K as [K|K]; [discriminate K|]); exact K|]). exact I.
    + eexists. split; [exact F2|]. cbn [declares]. rewrite M. split; [const_nodup|].
      intros m I K. cbn [map In] in I.
      repeat (destruct I as [<-|I]; [cbn [keywords map In] in K; repeat (destruct K as [K|K]; [discriminate K|]); exact K|]). exact I.
    + eexists. split; [exact F5|]. cbn [declares]. split; [const_nodup|].
      intros m I K. cbn [client_modules map In fst] in I.
      repeat (destruct I as [<-|I]; [cbn [keywords map In] in K; repeat (destruct K as [K|K]; [discriminate K|]); exact K|]). exact I.
    + eexists. split; [exact F6|]. split; [constructor | intros m []].
    + eexists. split; [exact F3|]. cbn [declares]. rewrite M. split; [const_nodup|].
      intros m I K. cbn [consumer_events map In] in I.
      repeat (destruct I as [<-|I]; [cbn [keywords map In] in K; repeat (destruct K as [K|K]; [discriminate K|]); exact K|]). exact I.
    + eexists. split; [exact F4|]. cbn [declares]. rewrite M. split; [exact NC|].
      intros m I. apply in_map_iff in I as (b & <- & I). apply KW, I4. apply all_broadcasts_refs. exact I.
Qed.
Print Assumptions C26_modules_distinct_partial.

Lemma nodupb : forall l : list text, (fix go l := match l with [] => true | x :: l => negb (existsb (teqb x) l) && go l end) l = true -> NoDup l.
Proof.
  induction l as [|x l IH]; intro H; [constructor|]. apply andb_true_iff in H as [H1 H2]. constructor; [|apply IH; exact H2].
  intro K. apply negb_true_iff in H1. assert (existsb (teqb x) l = true) as E; [|congruence].
  apply existsb_exists. exists x. split; [exact K | apply teqb_iff; reflexivity].
Qed.
Lemma notinb : forall (x : text) l, existsb (teqb x) l = false -> ~ In x l.
Proof.
  intros x l H K. assert (existsb (teqb x) l = true) as E; [|congruence].
  apply existsb_exists. exists x. split; [exact K | apply teqb_iff; reflexivity].
Qed.

Example C26_example : refs_apart (fst chat) /\ length (request_refs (fst chat)) = 4 /\ length (cast_refs (fst chat)) >= 3.
Proof.
  split; [|split; vm_compute; [reflexivity | lia]].
  constructor.
  - apply nodupb. vm_compute. reflexivity.
  - apply nodupb. vm_compute. reflexivity.
  - apply nodupb. vm_compute. reflexivity.
  - assert (K : forallb (fun a => forallb (fun b => negb (teqb (lower a) (lower b)) || teqb a b) (cast_refs (fst chat))) (cast_refs (fst chat)) = true)
      by (vm_compute; reflexivity).
    intros a b A B E. rewrite forallb_forall in K. specialize (K a A). rewrite forallb_forall in K. specialize (K b B).
    rewrite (proj2 (teqb_iff _ _) E) in K. apply teqb_iff. exact K.
  - assert (K : forallb (fun a => negb (existsb (Ascii.eqb und) a)) (all_refs (fst chat)) = true) by (vm_compute; reflexivity).
    intros a A I. rewrite forallb_forall in K. specialize (K a A). apply negb_true_iff in K.
    assert (existsb (Ascii.eqb und) a = true) as E by (apply existsb_exists; exists und; split; [exact I | apply Ascii.eqb_refl]). congruence.
  - assert (K : forallb (fun a => negb (existsb (teqb (lower a)) keywords)) (all_refs (fst chat)) = true) by (vm_compute; reflexivity).
    intros a A. rewrite forallb_forall in K. specialize (K a A). apply negb_true_iff in K. apply notinb. exact K.
  - assert (K : forallb (fun a => negb (existsb (teqb (lower a)) (map txt ["connected"; "disconnected"; "error"; "ready"; "shutdown"]%string))) (event_refs (fst chat)) = true)
      by (vm_compute; reflexivity).
    intros a A. rewrite forallb_forall in K. specialize (K a A). apply negb_true_iff in K. apply notinb. exact K.
Qed.

(** two beacons, accepted, whose modules have the same name *)
Definition modules_collide (t : text) (p : store) (dir : fpath) : Prop :=
  exists s p' cd pd f f' d, wf_accepts t p s p' /\ render (Some cd) (Some pd) s p' f = (f', Ok tt) /\
    f' (pd ++ dir ++ [txt "mod.rs"]) = Some d /\ ~ NoDup (map fst (declares d)).
Lemma dup_twice : forall (x : text) a b c, ~ NoDup (a ++ x :: b ++ x :: c).
Proof.
  intros x a b c N. apply NoDup_remove_2 in N. apply N. rewrite !in_app_iff. right. right. left. reflexivity.
Qed.
Ltac collide t a b x :=
  exists (fst (made t odd_store)), (snd (made t odd_store)), w_client, w_server, w_files; eexists _, _;
  split; [apply made_accepts; vm_compute; reflexivity|]; split; [apply render_pair; vm_compute; reflexivity|];
  split; [vm_compute; reflexivity|];
  match goal with |- ~ NoDup ?l => let l' := eval vm_compute in l in change (~ NoDup l') end;
  let x' := eval vm_compute in (txt x) in let a' := eval vm_compute in (map txt a) in let b' := eval vm_compute in (map txt b) in
  first [exact (dup_twice x' a' b' []) | exact (dup_twice x' a' b' (map txt ["ready"; "shutdown"]%string))].

Theorem C26_underscore_refuted : exists t p, modules_collide t p [impl; txt "beacons"].
Proof.
  set (t := odd_text "@beacons { > A.B_C; > A.B.C; } "). exists t, odd_store.
  collide t (@nil string) (@nil string) "a_b_c"%string.
Qed.
Print Assumptions C26_underscore_refuted.
Theorem C26_case_refuted : exists t p, modules_collide t p [impl; txt "beacons"].
Proof.
  set (t := odd_text "@beacons { > A.Ping; > A.PING; } "). exists t, odd_store.
  collide t (@nil string) (@nil string) "a_ping"%string.
Qed.
Print Assumptions C26_case_refuted.
(** two requests: one handler serves both, the other's file is overwritten *)
Theorem C26_request_case_refuted : exists t p, modules_collide t p [impl; txt "handlers"].
Proof.
  set (t := odd_text "A.Ping !A.E { (A.R); } A.PING !A.E { (A.R); } "). exists t, odd_store.
  collide t (@nil string) (@nil string) "a_ping"%string.
Qed.
Print Assumptions C26_request_case_refuted.
(** an event named like a module every project has *)
Theorem C26_reserved_refuted : exists t p, modules_collide t p [txt "events"].
Proof.
  set (t := odd_text "@Error { > M; } "). exists t, odd_store.
  collide t ["connected"; "disconnected"]%string ["ready"; "shutdown"]%string "error"%string.
Qed.
Print Assumptions C26_reserved_refuted.
(** a module that is a keyword *)
Theorem C26_keyword_refuted : exists t p s p' cd pd f f' d, wf_accepts t p s p' /\
  render (Some cd) (Some pd) s p' f = (f', Ok tt) /\ f' (pd ++ [txt "beacons"; txt "mod.rs"]) = Some d /\
  exists m, In m (map fst (declares d)) /\ In m keywords.
Proof.
  set (t := odd_text "@beacons { > Type; } ").
  exists t, odd_store, (fst (made t odd_store)), (snd (made t odd_store)), w_client, w_server, w_files. eexists _, _.
  split; [apply made_accepts; vm_compute; reflexivity|]. split; [apply render_pair; vm_compute; reflexivity|].
  split; [vm_compute; reflexivity|]. exists (txt "type"). split; vm_compute; tauto.
Qed.
Print Assumptions C26_keyword_refuted.

(** ** C68: the names declared in one scope of a generated Rust file *)

(** besides, names that differ once their dots are removed, no conclusion called
    [Err], no request called like a method every client has *)
Record names_tidy (s : wstore) : Prop := mkTidy {
  NT_apart : refs_apart s;
  NT_requests : NoDup (map plain_name (request_refs s));
  NT_events : NoDup (map plain_name (event_refs s));
  NT_casts : forall a b, In a (cast_refs s) -> In b (cast_refs s) -> plain_name a = plain_name b -> a = b;
  NT_emitter : forall a, In a (cast_refs s) -> ~ In (plain_name a) (map txt ["Connected"; "Disconnected"; "Shutdown"; "Error"]%string);
  NT_methods : forall a, In a (request_refs s) ->
    ~ In (lower a) (map txt ["new"; "shutdown"; "get.shutdown.token"]%string) /\
    forall b, In b (beacon_refs s) -> lower a <> txt "beacon." ++ lower b;
  NT_conclusions : forall r, In r (w_requests s) -> NoDup (map ac_concl (rq_actions r)) /\
    forall a, In a (rq_actions r) -> ac_concl a <> Some (txt "Err");
  NT_types : forall r, In r (w_requests s) -> 1 < length (rq_actions r) ->
    NoDup (map plain_name (map bc_ref (flat_map ac_bcs (rq_actions r))));
  NT_event_types : forall e, In e (w_events s) -> NoDup (map plain_name (map bc_ref (ev_list e)))
}.

Lemma map_inj_nodup : forall (A B : Type) (g : A -> B) l, (forall a b, In a l -> In b l -> g a = g b -> a = b) -> NoDup l -> NoDup (map g l).
Proof.
  intros A B g l I N. induction N as [|x l X N IH]; [constructor|]. cbn [map]. constructor.
  - intro K. apply in_map_iff in K as (y & E & Y). apply X. rewrite (I x y); [exact Y | left; reflexivity | right; exact Y | symmetry; exact E].
  - apply IH. intros a b A' B'. apply I; right; assumption.
Qed.

Lemma map_res_eq : forall (A B C : Type) (g : A -> res B rerr) (h : B -> C) (k : A -> C) l bs,
  map_res g l = Ok bs -> (forall a b, In a l -> g a = Ok b -> h b = k a) -> map h bs = map k l.
Proof.
  intros A B C g h k l. induction l as [|a l IH]; intros bs H E; cbn [map_res] in H.
  - injection H as <-. reflexivity.
  - apply bind_ok in H as (x & X & H). apply bind_ok in H as (xs & XS & H). injection H as <-. cbn [map].
    rewrite (E a x (or_introl eq_refl) X), (IH xs XS); [reflexivity|]. intros a' b' I. apply E. right. exact I.
Qed.
Lemma map_res_flat : forall (A B C : Type) (g : A -> res B rerr) (h : B -> list C) (k : A -> list C) l bs,
  map_res g l = Ok bs -> (forall a b, In a l -> g a = Ok b -> h b = k a) -> flat_map h bs = flat_map k l.
Proof.
  intros A B C g h k l bs H E. rewrite !flat_map_concat_map. f_equal. eapply map_res_eq; [exact H | exact E].
Qed.

Lemma request_of_refs : forall (g : wrequest -> res carms rerr) s rq h, map_res g (w_requests s) = Ok rq ->
  (forall r z, g r = Ok z -> exists q, rq_ref r = Some q) ->
  forall k : carms -> text, (forall r z q, g r = Ok z -> rq_ref r = Some q -> k z = h q) -> map k rq = map h (request_refs s).
Proof.
  intros g s rq h H D k K. revert rq H. unfold request_refs. induction (w_requests s) as [|r l IH]; intros rq H; cbn [map_res] in H.
  - injection H as <-. reflexivity.
  - apply bind_ok in H as (x & X & H). apply bind_ok in H as (xs & XS & H). injection H as <-.
    destruct (D r x X) as (q & Q). cbn [map flat_map]. rewrite Q. cbn [app map]. rewrite (K r x q X Q), (IH xs XS). reflexivity.
Qed.

Lemma arms_fields : forall r z, request_arms r = Ok z -> exists q, rq_ref r = Some q /\ ca_method z = module_name q /\
  ca_type z = plain_name q ++ txt "Response" /\
  map snd (ca_arms z) = map (fun a => match ac_concl a with Some c => c | None => txt "Response" end) (rq_actions r) ++ [txt "Err"].
Proof.
  intros r z H. unfold request_arms in H. apply bind_ok in H as (q & Q & H). apply bind_ok in H as (arms & A & H).
  apply bind_ok in H as (e & E & H). injection H as <-. unfold get_request, need in Q.
  destruct (rq_ref r) as [q'|]; [|discriminate]. injection Q as ->. exists q. repeat (split; [reflexivity|]).
  cbn [ca_arms]. rewrite map_app. f_equal. eapply map_res_eq; [exact A|].
  intros a b _ B. apply bind_ok in B as (x & _ & B). injection B as <-. reflexivity.
Qed.

Lemma app_inj_pre : forall (w : text) a b, w ++ a = w ++ b -> a = b.
Proof. intros w a b. apply app_inv_head. Qed.

Lemma undot_module : forall w a, ~ In und a -> module_name a = map mod_char w -> ~ In und w -> lower a = lower w.
Proof. intros w a A E W. apply module_inj; [exact A | exact W|]. rewrite E, module_map. reflexivity. Qed.

Lemma beacon_method : forall a b, ~ In und a -> ~ In und b -> module_name a = txt "beacon_" ++ module_name b ->
  lower a = txt "beacon." ++ lower b.
Proof.
  intros a b A B E. replace (txt "beacon." ++ lower b) with (lower (txt "beacon." ++ b)) by (rewrite lower_app; reflexivity).
  apply module_inj; [exact A | | rewrite E, !module_map, map_app; reflexivity].
  rewrite in_app_iff. intros [K|K]; [|exact (B K)]. vm_compute in K. repeat (destruct K as [K|K]; [discriminate K|]). exact K.
Qed.

Ltac put_case O :=
  match type of O with
  | _ = _ => inversion O; subst; clear O
  end.

Lemma name_cases : forall w l, In w (map txt l) -> exists x, In x l /\ w = txt x.
Proof. intros w l H. apply in_map_iff in H as (x & <- & X). exists x. split; [exact X | reflexivity]. Qed.

Theorem C68_names_distinct_partial : forall t p0 cd pd s p f f' u c pr base rel d, wf_accepts t p0 s p ->
  render cd pd s p f = (f', Ok u) -> separate cd pd -> w_config s = Some c -> part cd pd c pr TRust base -> names_tidy s ->
  f' (base ++ rel) = Some d -> f (base ++ rel) = Some d \/ Forall (@NoDup text) (scopes d).
Proof.
  intros t p0 cd pd s p f f' u c pr base rel d ACC H S C P [[RQ EV BC CA PL WD DF] N1 N2 N3 N4 N5 N6 N7 N8] E.
  destruct (render_from _ _ _ _ _ _ _ _ _ _ _ _ _ H S C P E) as [K|[(rest & deps & ->)|(k & O)]];
    [left; exact K | right; constructor|]. right.
  assert (I1 : incl (request_refs s) (all_refs s)) by (intros a I; unfold all_refs; rewrite !in_app_iff; tauto).
  assert (I2 : incl (event_refs s) (all_refs s)) by (intros a I; unfold all_refs; rewrite !in_app_iff; tauto).
  assert (I3 : incl (beacon_refs s) (all_refs s)) by (intros a I; unfold all_refs; rewrite !in_app_iff; tauto).
  assert (I4 : incl (cast_refs s) (all_refs s)) by (intros a I; unfold all_refs; rewrite !in_app_iff; tauto).
  assert (NR : NoDup (map module_name (request_refs s))) by (apply modules_nodup; [exact RQ | intros a I; apply PL, I1, I]).
  assert (NE : NoDup (map module_name (event_refs s))) by (apply modules_nodup; [exact EV | intros a I; apply PL, I2, I]).
  assert (NB : NoDup (map module_name (beacon_refs s))) by (apply modules_nodup; [exact BC | intros a I; apply PL, I3, I]).
  assert (NC : NoDup (map (fun b => module_name (bc_ref b)) (all_broadcasts s))).
  { apply casts_nodup. intros a b I J K. apply CA; [exact I | exact J|]. apply module_inj; [apply PL, I4, I | apply PL, I4, J | exact K]. }
  assert (ND : NoDup default_modules) by const_nodup.
  assert (DE : forall m, In m (map module_name (event_refs s)) -> ~ In m default_modules).
  { intros m I K. apply in_map_iff in I as (a & <- & I). apply (DF a I). rewrite (module_word a _ eq_refl); [exact K|].
    refine (no_und _ _ K _). vm_compute. reflexivity. }
  destruct (C24_complete t p0 s p ACC) as (CR & _ & _).
  assert (ONE : forall (l : list text), NoDup l -> Forall (@NoDup text) [l]) by (intros l N; constructor; [exact N | constructor]).
  remember (Put k (Ok rel) (Ok d)) as o eqn:OO.
  destruct pr; cbn [plan producer_plan consumer_plan] in O;
    unfold producer_rust, consumer_rust, ops_static, ops_consumer_static in O; cbv zeta in O; plan_cases O;
    rewrite OO in O; unfold op_response, op_handler, op_responses_mod, op_handlers_mod, op_event_impl, op_event_emitter, op_beacon_impl,
    op_beacon_emitter, op_beacon_emitters_mod, op_beacon_impl_mod, op_event_impl_mod, op_event_emitters_mod, static,
    op_protocol, op_identification, op_producer_consumer, op_main, op_broadcast, op_broadcast_mod, op_controller, op_client, op_options in O;
    try discriminate O; injection O as OK OR OD.
  all: try (subst d; solve [constructor | apply ONE; const_nodup]).
  all: clear OK.
  - (* response *)
    match goal with X : In ?x (w_requests s) |- _ => rename X into X0; rename x into r end.
    unfold response_doc in OD. apply bind_ok in OD as (q & _ & OD). apply bind_ok in OD as (body & B & OD). injection OD as <-.
    destruct (several r) eqn:SV.
    + apply bind_ok in B as (l & L & B). injection B as <-. cbn [scopes].
      unfold several in SV. apply Nat.ltb_lt in SV. destruct (CR r X0) as (_ & _ & CA2). destruct (N6 r X0) as [NC1 _]. constructor; [|constructor; [|constructor]].
      * apply (NoDup_map_inv (@Some text)). rewrite map_map.
        rewrite (map_res_eq _ _ _ _ _ ac_concl _ _ L); [exact NC1|].
        intros a b _ K. apply bind_ok in K as (c0 & C0 & K). apply bind_ok in K as (x0 & _ & K). injection K as <-.
        unfold get_conclusion, need in C0. destruct (ac_concl a); [injection C0 as ->; reflexivity | discriminate].
      * rewrite (map_res_flat _ _ _ _ _ (fun a => map bc_type (ac_bcs a)) _ _ L).
        -- rewrite flat_map_concat_map, <- map_map, <- concat_map, <- flat_map_concat_map.
           replace (map bc_type (flat_map ac_bcs (rq_actions r)))
             with (map (fun n => txt "Broadcast" ++ n) (map plain_name (map bc_ref (flat_map ac_bcs (rq_actions r)))))
             by (rewrite !map_map; reflexivity).
           apply map_inj_nodup; [intros a b _ _; apply app_inj_pre | exact (N7 r X0 SV)].
        -- intros a b _ K. apply bind_ok in K as (c0 & C0 & K). apply bind_ok in K as (x0 & _ & K). injection K as <-.
           cbn [snd]. rewrite map_map. reflexivity.
    + apply bind_ok in B as (l & L & B). injection B as <-. constructor.
  - (* handler *)
    unfold handler_doc in OD. apply bind_ok in OD as (q & _ & OD).
    destruct (several x); [apply bind_ok in OD as (l & _ & OD)|]; injection OD as <-; constructor.
  - apply bind_ok in OD as (ms & MS & OD). injection OD as <-. rewrite (request_modules_refs s ms MS). apply ONE. exact NR.
  - apply bind_ok in OD as (ms & MS & OD). injection OD as <-. rewrite (request_modules_refs s ms MS). apply ONE. exact NR.
  - (* event *)
    match goal with X : In ?x (w_events s) |- _ => rename X into X0; rename x into e end.
    apply bind_ok in OD as (q & _ & OD). injection OD as <-. cbn [scopes]. apply ONE. rewrite map_map. cbn [fst].
    replace (map (fun b => bc_type b) (ev_list e)) with (map (fun n => txt "Broadcast" ++ n) (map plain_name (map bc_ref (ev_list e))))
      by (rewrite !map_map; reflexivity).
    apply map_inj_nodup; [intros a b _ _; apply app_inj_pre | exact (N8 e X0)].
  - apply bind_ok in OD as (q & _ & OD). injection OD as <-. constructor.
  - subst d. apply ONE. rewrite <- (map_map bc_ref module_name). exact NB.
  - subst d. apply ONE. rewrite <- (map_map bc_ref module_name). exact NB.
  - apply bind_ok in OD as (ms & MS & OD). injection OD as <-. rewrite (event_modules_refs s ms MS). apply ONE.
    apply (app_nodup _ default_modules); [exact ND | exact NE | intros m I K; exact (DE m K I)].
  - apply bind_ok in OD as (ms & MS & OD). injection OD as <-. rewrite (event_modules_refs s ms MS). apply ONE.
    apply app_nodup; [exact NE | exact ND | exact DE].
  - apply bind_ok in OD as (a1 & _ & OD). apply bind_ok in OD as (a2 & _ & OD). apply bind_ok in OD as (a3 & _ & OD).
    apply bind_ok in OD as (a4 & _ & OD). injection OD as <-. constructor.
  - apply bind_ok in OD as (a1 & _ & OD). apply bind_ok in OD as (a2 & _ & OD). injection OD as <-. apply ONE. const_nodup.
  - (* main *)
    unfold main_doc in OD. apply bind_ok in OD as (rq & _ & OD). apply bind_ok in OD as (ev & V & OD).
    apply bind_ok in OD as (k0 & _ & OD). injection OD as <-. cbn [scopes].
    assert (EQ : forall (h : text -> text) (g : text * text * text -> text),
      (forall q, g (plain_name q, module_name q, rust_path q) = h q) -> map g ev = map h (event_refs s)).
    { intros h g G. clear -G V. revert ev V. unfold event_refs, own_events. induction (w_events s) as [|e l IH]; intros ev V; cbn [filter] in V.
      - injection V as <-. reflexivity.
      - cbn [flat_map]. destruct (is_default e) eqn:D; cbn [negb] in V.
        + unfold is_default in D. destruct (ev_ref e) as [q|]; [|discriminate]. rewrite D. cbn [app]. apply IH. exact V.
        + cbn [map_res] in V. apply bind_ok in V as (x & X & V). apply bind_ok in V as (xs & XS & V). injection V as <-.
          apply bind_ok in X as (q & Q & X). injection X as <-. unfold get_reference, need in Q. unfold is_default in D.
          destruct (ev_ref e) as [q'|]; [|discriminate]. injection Q as ->. rewrite D. cbn [app map]. rewrite G, (IH xs XS). reflexivity. }
    constructor; [const_nodup|]. constructor; [rewrite (EQ plain_name); [exact N2 | reflexivity]|].
    constructor; [rewrite (EQ module_name); [exact NE | reflexivity] | constructor].
  - (* controller *)
    apply bind_ok in OD as (rq & R & OD). injection OD as <-. cbn [scopes].
    assert (M1 : map ca_method rq = map module_name (request_refs s)).
    { apply (request_of_refs request_arms s rq module_name R).
      - intros r z Z. destruct (arms_fields r z Z) as (q & Q & _). exists q. exact Q.
      - intros r z q Z Q. destruct (arms_fields r z Z) as (q' & Q' & M' & _). congruence. }
    assert (M2 : map ca_type rq = map (fun q => plain_name q ++ txt "Response") (request_refs s)).
    { apply (request_of_refs request_arms s rq _ R).
      - intros r z Z. destruct (arms_fields r z Z) as (q & Q & _). exists q. exact Q.
      - intros r z q Z Q. destruct (arms_fields r z Z) as (q' & Q' & _ & T' & _). congruence. }
    constructor; [|constructor].
    + rewrite M1, (map_map _ fst). cbn [fst].
      set (bm := map (fun b => txt "beacon_" ++ module_name (bc_ref b)) (w_beacons s)).
      assert (NBM : NoDup bm).
      { unfold bm. replace (map (fun b => txt "beacon_" ++ module_name (bc_ref b)) (w_beacons s))
          with (map (app (txt "beacon_")) (map module_name (beacon_refs s))) by (unfold beacon_refs; rewrite !map_map; reflexivity).
        apply map_inj_nodup; [intros a b _ _; apply app_inj_pre | exact NB]. }
      change (NoDup (map txt ["new"; "shutdown"; "get_shutdown_token"]%string ++ bm ++ map module_name (request_refs s))).
      apply app_nodup; [const_nodup | apply app_nodup; [exact NBM | exact NR |] |].
      * intros m I K. apply in_map_iff in I as (b & E1 & I). apply in_map_iff in K as (a & E2 & K).
        destruct (N5 a K) as [_ N]. apply (N (bc_ref b)); [apply in_map; exact I|].
        apply beacon_method; [apply PL, I1, K | apply PL, I3, in_map, I | congruence].
      * intros m I K. apply in_app_iff in K as [K|K].
        -- apply in_map_iff in K as (b & <- & K). cbn [map In] in I. destruct I as [I|[I|[I|[]]]]; discriminate I.
        -- apply in_map_iff in K as (a & <- & K). destruct (N5 a K) as [N _]. apply N.
           assert (L : lower a = txt "new" \/ lower a = txt "shutdown" \/ lower a = txt "get.shutdown.token").
           { cbn [map In] in I. destruct I as [I|[I|[I|[]]]].
             - left. apply (module_word a); [symmetry; exact I|]. apply (no_und _ ["new"%string]); [left; reflexivity | reflexivity].
             - right. left. apply (module_word a); [symmetry; exact I|]. apply (no_und _ ["shutdown"%string]); [left; reflexivity | reflexivity].
             - right. right. apply (module_inj a (txt "get.shutdown.token")); [apply PL, I1, K | | symmetry; exact I].
               apply (no_und _ ["get.shutdown.token"%string]); [left; reflexivity | reflexivity]. }
           cbn [map In]. destruct L as [L|[L|L]]; rewrite L; tauto.
    + rewrite M2. replace (map (fun q => plain_name q ++ txt "Response") (request_refs s))
        with (map (fun n => n ++ txt "Response") (map plain_name (request_refs s))) by (rewrite map_map; reflexivity).
      apply map_inj_nodup; [intros a b _ _; apply app_inv_tail | exact N1].
    + apply Forall_forall. intros l L. apply in_map_iff in L as (z & <- & Z).
      destruct (map_res_in _ _ _ _ _ _ R Z) as (r & RR & A). destruct (arms_fields r z A) as (q & _ & _ & _ & ->).
      destruct (CR r RR) as (_ & _ & CA2). destruct (N6 r RR) as [NC1 NC2].
      apply app_nodup1.
      * destruct (rq_actions r) as [|a1 [|a2 l]] eqn:AC; [constructor | constructor; [intros [] | constructor]|]. rewrite <- AC in *.
        apply (NoDup_map_inv (@Some text)). rewrite map_map. erewrite map_ext_in; [exact NC1|]. intros a I. cbn beta.
        destruct (CA2 a I) as (_ & K). destruct (ac_concl a); [reflexivity|]. exfalso. apply K; [rewrite AC; cbn [length]; lia | reflexivity].
      * intro K. apply in_map_iff in K as (a & E1 & I). apply (NC2 a I). destruct (ac_concl a); [congruence | discriminate E1].
  - (* client *)
    subst d. cbn [scopes]. constructor; [const_nodup|]. apply ONE. rewrite (map_map _ (fun x => snd (fst x))). cbn [fst snd].
    change (NoDup (map txt ["Connected"; "Disconnected"; "Shutdown"; "Error"]%string ++ map (fun b => plain_name (bc_ref b)) (all_broadcasts s))).
    apply app_nodup; [const_nodup | apply casts_nodup; exact N3|].
    intros m I K. apply in_map_iff in K as (b & <- & B). exact (N4 _ (proj2 (all_broadcasts_refs s) b B) I).
  - apply bind_ok in OD as (a1 & _ & OD). injection OD as <-. constructor.
Qed.
Print Assumptions C68_names_distinct_partial.

Definition same_opt (a b : option text) : bool :=
  match a, b with Some a, Some b => teqb a b | None, None => true | _, _ => false end.
Example C68_example : names_tidy (fst chat).
Proof.
  constructor.
  - exact (proj1 C26_example).
  - apply nodupb. vm_compute. reflexivity.
  - apply nodupb. vm_compute. reflexivity.
  - assert (K : forallb (fun a => forallb (fun b => negb (teqb (plain_name a) (plain_name b)) || teqb a b) (cast_refs (fst chat))) (cast_refs (fst chat)) = true)
      by (vm_compute; reflexivity).
    intros a b A B E. rewrite forallb_forall in K. specialize (K a A). rewrite forallb_forall in K. specialize (K b B).
    rewrite (proj2 (teqb_iff _ _) E) in K. apply teqb_iff. exact K.
  - assert (K : forallb (fun a => negb (existsb (teqb (plain_name a)) (map txt ["Connected"; "Disconnected"; "Shutdown"; "Error"]%string))) (cast_refs (fst chat)) = true)
      by (vm_compute; reflexivity).
    intros a A. rewrite forallb_forall in K. specialize (K a A). apply negb_true_iff in K. apply notinb. exact K.
  - assert (K : forallb (fun a => negb (existsb (teqb (lower a)) (map txt ["new"; "shutdown"; "get.shutdown.token"]%string)) &&
        forallb (fun b => negb (teqb (lower a) (txt "beacon." ++ lower b))) (beacon_refs (fst chat))) (request_refs (fst chat)) = true)
      by (vm_compute; reflexivity).
    intros a A. rewrite forallb_forall in K. specialize (K a A). apply andb_true_iff in K as [K1 K2]. split.
    + apply negb_true_iff in K1. apply notinb. exact K1.
    + intros b B E. rewrite forallb_forall in K2. specialize (K2 b B). rewrite (proj2 (teqb_iff _ _) E) in K2. discriminate K2.
  - assert (K : forallb (fun r => forallb (fun a => negb (same_opt (ac_concl a) (Some (txt "Err")))) (rq_actions r) &&
        (fix go l := match l with [] => true | x :: l => negb (existsb (same_opt x) l) && go l end) (map ac_concl (rq_actions r)))
        (w_requests (fst chat)) = true) by (vm_compute; reflexivity).
    assert (OE : forall a b : option text, a = b -> same_opt a b = true)
      by (intros [a|] b <-; [apply (teqb_iff a a); reflexivity | reflexivity]).
    intros r R. rewrite forallb_forall in K. specialize (K r R). apply andb_true_iff in K as [K1 K2]. split.
    + revert K2. generalize (map ac_concl (rq_actions r)) as l. clear -OE. induction l as [|x l IH]; intro H; [constructor|].
      apply andb_true_iff in H as [H1 H2]. constructor; [|apply IH; exact H2].
      intro I. apply negb_true_iff in H1. assert (existsb (same_opt x) l = true) as E; [|congruence].
      apply existsb_exists. exists x. split; [exact I | apply OE; reflexivity].
    + intros a A E. rewrite forallb_forall in K1. specialize (K1 a A). rewrite (OE _ _ E) in K1. discriminate K1.
  - intros r R _. assert (K : forallb (fun r => (fix go l := match l with [] => true | x :: l => negb (existsb (teqb x) l) && go l end)
        (map plain_name (map bc_ref (flat_map ac_bcs (rq_actions r))))) (w_requests (fst chat)) = true) by (vm_compute; reflexivity).
    rewrite forallb_forall in K. apply nodupb. exact (K r R).
  - intros r R. assert (K : forallb (fun r => (fix go l := match l with [] => true | x :: l => negb (existsb (teqb x) l) && go l end)
        (map plain_name (map bc_ref (ev_list r)))) (w_events (fst chat)) = true) by (vm_compute; reflexivity).
    rewrite forallb_forall in K. apply nodupb. exact (K r R).
Qed.

(** the parser accepts what breaks this *)
Definition names_collide (t : text) (p : store) (server : bool) (rel : fpath) : Prop :=
  exists s p' cd pd f f' d, wf_accepts t p s p' /\ render (Some cd) (Some pd) s p' f = (f', Ok tt) /\
    f ((if server then pd else cd) ++ rel) = None /\ f' ((if server then pd else cd) ++ rel) = Some d /\
    ~ Forall (@NoDup text) (scopes d).
Lemma scope_dup : forall (ls : list (list text)) l, In l ls -> ~ NoDup l -> ~ Forall (@NoDup text) ls.
Proof. intros ls l I N F. rewrite Forall_forall in F. exact (N (F l I)). Qed.
Lemma dup_by : forall l : list text, (fix go l := match l with [] => false | x :: l => existsb (teqb x) l || go l end) l = true -> ~ NoDup l.
Proof.
  induction l as [|x l IH]; intros H N; [discriminate|]. inversion N as [|? ? N1 N2]; subst. apply orb_true_iff in H as [H|H].
  - apply existsb_exists in H as (y & Y & E). apply teqb_iff in E. subst y. exact (N1 Y).
  - exact (IH H N2).
Qed.
Lemma scopes_dup : forall ls : list (list text),
  existsb (fix go l := match l with [] => false | x :: l => existsb (teqb x) l || go l end) ls = true -> ~ Forall (@NoDup text) ls.
Proof. intros ls H. apply existsb_exists in H as (l & L & H). exact (scope_dup ls l L (dup_by l H)). Qed.
Ltac clash t :=
  exists (fst (made t odd_store)), (snd (made t odd_store)), w_client, w_server, w_files; eexists _, _;
  split; [apply made_accepts; vm_compute; reflexivity|]; split; [apply render_pair; vm_compute; reflexivity|];
  split; [vm_compute; reflexivity|]; split; [vm_compute; reflexivity|]; apply scopes_dup; vm_compute; reflexivity.

(** one broadcast in two conclusions: two type aliases *)
Theorem C68_shared_broadcast_refuted : exists t p rel, names_collide t p true rel.
Proof.
  set (t := odd_text "A.Ping !A.E { (Yes > A.R) > M; (No > A.S) > M; } ").
  exists t, odd_store, [txt "responses"; txt "a_ping.rs"]. clash t.
Qed.
Print Assumptions C68_shared_broadcast_refuted.
Theorem C68_plain_names_refuted : exists t p rel, names_collide t p true rel.
Proof.
  set (t := odd_text "@A.Ping { > A.R; > AR; } "). exists t, odd_store, [txt "events"; txt "a_ping.rs"]. clash t.
Qed.
Print Assumptions C68_plain_names_refuted.
(** a conclusion called [Err], or used twice *)
Theorem C68_err_conclusion_refuted : exists t p rel, names_collide t p false rel.
Proof.
  set (t := odd_text "A.Ping !A.E { (Err > A.R); } "). exists t, odd_store, [impl; txt "consumer"; txt "controller.rs"]. clash t.
Qed.
Print Assumptions C68_err_conclusion_refuted.
Theorem C68_same_conclusion_refuted : exists t p rel, names_collide t p true rel.
Proof.
  set (t := odd_text "A.Ping !A.E { (Yes > A.R) > M; (Yes > A.S); } "). exists t, odd_store, [txt "responses"; txt "a_ping.rs"]. clash t.
Qed.
Print Assumptions C68_same_conclusion_refuted.
(** a broadcast called like one of the client's own events *)
Theorem C68_client_event_refuted : exists t p rel, names_collide t p false rel.
Proof.
  set (t := odd_text "@A.Ping { > Error; } "). exists t, odd_store, [impl; txt "consumer"; txt "mod.rs"]. clash t.
Qed.
Print Assumptions C68_client_event_refuted.

(** ** C69: the user's manifest *)

Definition requires (pr : bool) (t : target) : list (text * text) :=
  match pr, t with true, TRust => producer_deps | false, TRust => consumer_deps | _, TTypeScript => ts_deps end.
(** the manifest nearest to [base] is [q] *)
Definition nearest (f : fs) (file : text) (base q : fpath) : Prop :=
  exists k, k < length base /\ q = firstn (S k) base ++ [file] /\ f q <> None /\
    forall j, k < j < length base -> f (firstn (S j) base ++ [file]) = None.

Lemma plan_requires : forall pr t s p file deps, In (Merge file deps) (plan pr s p t) -> deps = requires pr t.
Proof.
  intros pr t s p file deps H. remember (Merge file deps) as o eqn:E.
  destruct pr, t; cbn [plan producer_plan consumer_plan] in H;
    unfold producer_rust, consumer_rust, producer_ts, consumer_ts, ops_static, ops_ts_static, ops_consumer_static in H;
    cbv zeta in H; plan_cases H; rewrite <- H in E; try discriminate E; inversion E; reflexivity.
Qed.
Lemma plan_merges : forall pr t s p, In (Merge (manifest_of t) (requires pr t)) (plan pr s p t).
Proof.
  intros pr t s p. destruct pr, t; cbn [plan producer_plan consumer_plan];
    unfold producer_rust, consumer_rust, producer_ts, consumer_ts; cbv zeta;
    repeat first [ apply in_app_iff; right | progress (cbn [In]) ]; cbn [manifest_of requires]; tauto.
Qed.
Lemma manifest_of_name : forall t, manifest_name (manifest_of t).
Proof. intros []; [left | right]; reflexivity. Qed.

Lemma seq_prefix : forall l f f' r, run_seq l f = (f', r) ->
  exists a b, l = a ++ b /\ run_seq a f = (f', Ok tt) /\ ((exists u, r = Ok u) -> b = []).
Proof.
  induction l as [|[b o] l IH]; intros f f' r H; cbn [run_seq] in H.
  - exists [], []. injection H as <- <-. repeat split; reflexivity.
  - destruct (exec b o f) as [g v] eqn:X.
    assert (F : (forall u, v <> Ok u) -> g = f).
    { intro N. destruct o as [keep dest body|file deps]; cbn [exec] in X.
      - destruct dest as [w|e|]; [|congruence|congruence].
        destruct (keep && is_some (f (b ++ w))); [congruence|].
        destruct body as [x|e|]; [|congruence|congruence]. injection X as _ <-. exfalso. exact (N tt eq_refl).
      - destruct (manifest f file b (length b)) as [m|]; [|congruence].
        destruct (f m) as [[]|]; try congruence. }
    destruct v as [u|e|].
    + destruct (IH g f' r H) as (a & c & -> & R & B). exists ((b, o) :: a), c. split; [reflexivity|]. split; [|exact B].
      cbn [run_seq]. rewrite X. exact R.
    + injection H as <- <-. exists [], ((b, o) :: l). split; [reflexivity|]. rewrite F by discriminate.
      split; [reflexivity | intros (u & K); discriminate].
    + injection H as <- <-. exists [], ((b, o) :: l). split; [reflexivity|]. rewrite F by discriminate.
      split; [reflexivity | intros (u & K); discriminate].
Qed.

Lemma manifest_nearest_n : forall f file base n q, n <= length base -> manifest f file base n = Some q ->
  exists k, k < n /\ q = firstn (S k) base ++ [file] /\ f q <> None /\ forall j, k < j < n -> f (firstn (S j) base ++ [file]) = None.
Proof.
  intros f file base n. induction n as [|n IH]; intros q L H; [discriminate|]. cbn [manifest] in H.
  remember (firstn (S n) base ++ [file]) as m eqn:M. destruct (is_some (f m)) eqn:E.
  - inversion H; subst q. exists n. split; [lia|]. split; [exact M|]. split; [intro K; rewrite K in E; discriminate|]. intros j J. lia.
  - destruct (IH q) as (k & K1 & K2 & K3 & K4); [lia | exact H|]. exists k. split; [lia|]. split; [exact K2|]. split; [exact K3|].
    intros j J. destruct (Nat.eq_dec j n) as [->|D]; [|apply K4; lia]. rewrite <- M. destruct (f m); [discriminate | reflexivity].
Qed.
Lemma manifest_nearest : forall f file base q, manifest f file base (length base) = Some q -> nearest f file base q.
Proof. intros f file base q H. exact (manifest_nearest_n f file base (length base) q (le_n _) H). Qed.
Lemma value_in : forall l k v, value l k = Some v -> In (k, v) l.
Proof.
  induction l as [|[k' v'] l IH]; intros k v H; cbn [value] in H; [discriminate|].
  destruct (teqb k' k) eqn:E; [apply teqb_iff in E; left; congruence | right; exact (IH k v H)].
Qed.
Lemma value_none : forall l k, (forall v, ~ In (k, v) l) -> value l k = None.
Proof. intros l k H. destruct (value l k) as [v|] eqn:E; [|reflexivity]. exfalso. exact (H v (value_in l k v E)). Qed.
Lemma value_some : forall l k v, In (k, v) l -> value l k <> None.
Proof.
  induction l as [|[k' v'] l IH]; intros k v H; [destruct H|]; destruct H as [H|H]; cbn [value].
  - injection H as -> ->. rewrite (proj2 (teqb_iff k k) eq_refl). discriminate.
  - destruct (teqb k' k); [discriminate | exact (IH k v H)].
Qed.

(** whatever the outcome, a manifest keeps everything but the dependencies the
    generated code needs; after a successful generation those are all there *)
Theorem C69_manifest_kept : forall cd pd s p f f' r dir n rest deps, render cd pd s p f = (f', r) ->
  n = txt "Cargo.toml" \/ n = txt "package.json" -> f (dir ++ [n]) = Some (DManifest rest deps) ->
  exists deps', f' (dir ++ [n]) = Some (DManifest rest deps') /\
    forall k, (forall pr t v, ~ In (k, v) (requires pr t)) -> value deps' k = value deps k.
Proof.
  intros cd pd s p f f' r dir n rest deps H N F.
  destruct (render_ops _ _ _ _ _ _ _ H) as [(-> & _)|(c & C & R)]; [exists deps; split; [exact F | reflexivity]|].
  destruct (seq_prefix _ _ _ _ R) as (a & b & E & R' & _).
  pose proof (all_wf cd pd s p c) as W. rewrite E in W. apply Forall_app in W as [W _].
  rewrite (seq_effect a f f' tt f (dir ++ [n]) W R' (same_refl f)), F, (effects_manifest f dir n a _ W N). eexists. split; [reflexivity|].
  intros k K. rewrite value_merged. rewrite value_none; [reflexivity|].
  intros v I. apply in_rev in I. unfold collect in I. apply in_flat_map in I as ([b0 o] & O & I). cbn [fst snd] in I.
  destruct o as [|file ds]; [contradiction|]. destruct (manifest f file b0 (length b0)); [|contradiction].
  destruct (peqb f0 (dir ++ [n])); [|contradiction].
  assert (O' : In (b0, Merge file ds) (all_ops cd pd s p c)) by (rewrite E; apply in_app_iff; left; exact O).
  apply in_all_ops in O' as (pr & t & _ & O'). rewrite (plan_requires _ _ _ _ _ _ O') in I. exact (K pr t v I).
Qed.
Print Assumptions C69_manifest_kept.

Theorem C69_dependencies_added : forall cd pd s p f f' u c pr t base q k v, render cd pd s p f = (f', Ok u) ->
  w_config s = Some c -> part cd pd c pr t base -> nearest f (manifest_of t) base q -> In (k, v) (requires pr t) ->
  exists rest deps' pr' t' base' v', f' q = Some (DManifest rest deps') /\ value deps' k = Some v' /\
    part cd pd c pr' t' base' /\ nearest f (manifest_of t') base' q /\ In (k, v') (requires pr' t').
Proof.
  intros cd pd s p f f' u c pr t base q k v H C P NE I.
  destruct (render_ops _ _ _ _ _ _ _ H) as [(_ & e & K)|(c' & C' & R)]; [discriminate|]. assert (c' = c) as -> by congruence.
  pose proof (all_wf cd pd s p c) as W. destruct NE as (j & J & -> & NN & FF).
  assert (MF : manifest f (manifest_of t) base (length base) = Some (firstn (S j) base ++ [manifest_of t]))
    by (apply manifest_found; [exact J | lia | exact NN | exact FF]).
  remember (firstn (S j) base ++ [manifest_of t]) as q eqn:Q.
  assert (X : In (base, Merge (manifest_of t) (requires pr t)) (all_ops cd pd s p c))
    by (apply in_all_ops; exists pr, t; split; [exact P | apply plan_merges]).
  assert (KIND : is_man (f q) = true).
  { apply in_split in X as (a & b & E). rewrite E in R, W. rewrite run_seq_app in R.
    destruct (run_seq a f) as [g [w|e|]] eqn:RA; [|discriminate|discriminate]. cbn [run_seq exec] in R.
    apply Forall_app in W as [W _]. pose proof (seq_kinds _ _ _ _ W RA) as SK. pose proof (seq_manifests _ _ _ _ W RA) as SM.
    rewrite <- (same_manifest f g (manifest_of t) base (length base) SM (manifest_of_name t)), MF in R.
    rewrite Q. rewrite (SK (firstn (S j) base) (manifest_of t) (manifest_of_name t)). rewrite <- Q.
    destruct (g q) as [[]|]; try discriminate R. reflexivity. }
  destruct (f q) as [[| | | | |rest deps| | | | | | | | | | | |]|] eqn:FQ; try discriminate KIND.
  pose proof (seq_effect _ f f' u f q W R (same_refl f)) as EF. rewrite FQ, Q in EF.
  rewrite (effects_manifest f _ _ _ _ W (manifest_of_name t)) in EF. rewrite <- Q in EF.
  set (req := collect f q (all_ops cd pd s p c)) in *.
  assert (IN : In (k, v) (rev req)).
  { rewrite <- in_rev. unfold req, collect. apply in_flat_map. eexists. split; [exact X|]. cbn [fst snd]. rewrite MF.
    rewrite (proj2 (peqb_iff q q) eq_refl). exact I. }
  destruct (value (rev req) k) as [v'|] eqn:V; [|exfalso; exact (value_some _ _ _ IN V)].
  pose proof (value_in _ _ _ V) as IV. rewrite <- in_rev in IV. unfold req, collect in IV.
  apply in_flat_map in IV as ([b0 o] & O & IV). cbn [fst snd] in IV. destruct o as [|file ds]; [contradiction|].
  destruct (manifest f file b0 (length b0)) as [m|] eqn:MM; [|contradiction].
  destruct (peqb m q) eqn:PQ; [|contradiction]. apply peqb_iff in PQ. subst m.
  apply in_all_ops in O as (pr' & t' & P' & O'). pose proof (plan_merge _ _ _ _ _ _ O') as FL. subst file.
  rewrite (plan_requires _ _ _ _ _ _ O') in IV.
  exists rest, (merged deps req), pr', t', b0, v'. split; [exact EF|]. split; [rewrite value_merged, V; reflexivity|].
  split; [exact P'|]. split; [|exact IV]. apply manifest_nearest. exact MM.
Qed.
Print Assumptions C69_dependencies_added.

(** the example's Cargo.toml; its own version of [log] is replaced *)
Example C69_example : nearest w_files (txt "Cargo.toml") w_server w_manifest /\
  exists deps, chat_files w_manifest = Some (DManifest 7 deps) /\ value deps (txt "serde") = Some (txt "1.0") /\
    value deps (txt "log") = Some (txt "0.4.14").
Proof.
  split.
  - exists 0. split; [vm_compute; lia|]. split; [reflexivity|]. split; [vm_compute; discriminate|].
    intros j J. vm_compute in J. destruct j as [|[|j]]; [lia | vm_compute; reflexivity | lia].
  - eexists. split; [vm_compute; reflexivity|]. split; vm_compute; reflexivity.
Qed.

(** client and server in one crate: the client's code was generated for tokio
    1.14.0, the manifest asks for 1.5.0 *)
Theorem C69_shared_manifest_refuted : exists t p s p' cd pd f f' rest deps, wf_accepts t p s p' /\
  render (Some cd) (Some pd) s p' f = (f', Ok tt) /\ f' w_manifest = Some (DManifest rest deps) /\
  nearest f (txt "Cargo.toml") cd w_manifest /\ exists k v, In (k, v) (requires false TRust) /\ value deps k <> Some v.
Proof.
  exists chat_workflow, chat_store, (fst chat), (snd chat), w_client, w_server, w_files, chat_files.
  eexists _, _. split; [apply chat_rendered|]. split; [apply chat_rendered|]. split; [vm_compute; reflexivity|]. split.
  - exists 0. split; [vm_compute; lia|]. split; [reflexivity|]. split; [vm_compute; discriminate|].
    intros j J. vm_compute in J. destruct j as [|[|j]]; [lia | vm_compute; reflexivity | lia].
  - exists (txt "tokio"), (txt "1.14.0"). split; [vm_compute; tauto | vm_compute; discriminate].
Qed.
Print Assumptions C69_shared_manifest_refuted.

(** ** C70: what the handlers of a generated Rust server send *)

Lemma rs_inj : forall a b, rs a = rs b -> a = b.
Proof. intros a b. apply app_inv_tail. Qed.

Definition third (q : option fpath) : text := match q with Some [_; _; x] => x | _ => [] end.
(** as [plan_all], keeping what the references are *)
Ltac plan_refs H F :=
  unfold producer_rust, consumer_rust, producer_ts, consumer_ts, ops_static, ops_ts_static, ops_consumer_static in H;
  cbv zeta in H; plan_cases H;
  match type of H with _ = ?o => subst o end; open_ops F;
  try discriminate F;
  try solve [exfalso; match type of F with
    | context [rq_ref ?x] => destruct (rq_ref x); discriminate F
    | context [ev_ref ?x] => destruct (ev_ref x); discriminate F end].

(** of a request with several conclusions whose module is its own: the handler has
    every conclusion with every broadcast declared for it, in order *)
Theorem C70_request_broadcasts_partial : forall cd pd s p f f' u c base r q, render cd pd s p f = (f', Ok u) ->
  separate cd pd -> w_config s = Some c -> part cd pd c true TRust base ->
  In r (w_requests s) -> rq_ref r = Some q -> module_name q <> txt "mod" ->
  (forall r' q', In r' (w_requests s) -> rq_ref r' = Some q' -> module_name q' = module_name q -> r' = r) ->
  1 < length (rq_actions r) ->
  exists l, f' (base ++ [impl; txt "handlers"; rs (module_name q)]) = Some (DHandler (rust_path q) (module_name q) (Some l)) /\
    map (fun x => Some (fst x)) l = map ac_concl (rq_actions r) /\
    map snd l = map (fun a => map (fun b => (txt "broadcast_" ++ module_name (bc_ref b), bc_opt b)) (ac_bcs a)) (rq_actions r).
Proof.
  intros cd pd s p f f' u c base r q H S C P R Q NM OWN SV.
  destruct (render_forced cd pd s p f f' u c true TRust base [impl; txt "handlers"; rs (module_name q)] (handler_doc r) H S C P) as (d & D & F).
  - discriminate.
  - cbn [plan producer_plan]. apply (in_request_op s p r); [exact R|]. right. left. unfold op_handler, get_request, need. rewrite Q. reflexivity.
  - intros o O K. cbn [plan producer_plan] in O. plan_refs O K.
    + match goal with |- op_handler ?y = _ => rename y into r' end.
      destruct (rq_ref r') as [q'|] eqn:Q'; cbn [bind] in K; [|discriminate K].
      unfold op_handler, get_request, need. rewrite Q'. cbn [bind].
      assert (MM : module_name q' = module_name q) by (apply rs_inj; apply (f_equal third) in K; exact K).
      match goal with X : In r' (w_requests s) |- _ => rewrite (OWN r' q' X Q' MM) end. rewrite MM. reflexivity.
    + exfalso. apply NM. apply (f_equal third) in K. apply rs_inj. symmetry. exact K.
  - unfold handler_doc, get_request, need in D. rewrite Q in D. cbn [bind] in D.
    assert (several r = true) as SS by (apply Nat.ltb_lt; exact SV). rewrite SS in D.
    apply bind_ok in D as (l & L & D). injection D as <-. exists l. split; [exact F|]. split.
    + eapply map_res_eq; [exact L|]. intros a b _ B. apply bind_ok in B as (x & X & B). injection B as <-. cbn [fst].
      unfold get_conclusion, need in X. destruct (ac_concl a); [congruence | discriminate].
    + eapply map_res_eq; [exact L|]. intros a b _ B. apply bind_ok in B as (x & X & B). injection B as <-. reflexivity.
Qed.
Print Assumptions C70_request_broadcasts_partial.

(** of an event whose module is its own *)
Theorem C70_event_broadcasts_partial : forall cd pd s p f f' u c base e q, render cd pd s p f = (f', Ok u) ->
  separate cd pd -> w_config s = Some c -> part cd pd c true TRust base ->
  In e (w_events s) -> ev_ref e = Some q -> module_name q <> txt "mod" ->
  q = txt "connected" \/ q = txt "disconnected" \/
  ~ In (module_name q) (map txt ["connected"; "disconnected"; "error"; "ready"; "shutdown"]%string) ->
  (forall e' q', In e' (w_events s) -> ev_ref e' = Some q' -> module_name q' = module_name q -> e' = e) ->
  exists default, f' (base ++ [impl; txt "emitters"; rs (module_name q)]) =
    Some (DEmitter default (rust_path q) (module_name q)
            (map (fun b => (txt "broadcast_" ++ module_name (bc_ref b), bc_opt b)) (ev_list e))).
Proof.
  intros cd pd s p f f' u c base e q H S C P R Q NM RES OWN.
  destruct (render_forced cd pd s p f f' u c true TRust base [impl; txt "emitters"; rs (module_name q)]
    (Ok (DEmitter (is_default e) (rust_path q) (module_name q) (map (fun b => (bc_var b, bc_opt b)) (ev_list e)))) H S C P) as (d & D & F).
  - discriminate.
  - cbn [plan producer_plan]. apply (in_event_op s p e); [exact R|]. right. left.
    unfold op_event_emitter, get_reference, need. rewrite Q. reflexivity.
  - assert (ST : forall m, module_name q = txt m -> In m ["connected"; "disconnected"; "error"; "ready"; "shutdown"]%string ->
      (q = txt "connected" \/ q = txt "disconnected") /\ q = txt m).
    { intros m M I. destruct RES as [->|[->|RES]].
      - split; [left; reflexivity|]. rewrite <- M. reflexivity.
      - split; [right; reflexivity|]. rewrite <- M. reflexivity.
      - exfalso. apply RES. rewrite M. apply in_map. exact I. }
    assert (HE : forall m, q = txt m -> has_event (w_events s) m = true).
    { intros m M. apply existsb_exists. exists e. split; [exact R|]. rewrite Q. cbn [oteqb]. apply teqb_iff. exact M. }
    intros o O K. cbn [plan producer_plan] in O.
    assert (NF : forall m, In m ["connected"; "disconnected"; "error"; "ready"; "shutdown"]%string ->
      rs (txt m) = rs (module_name q) -> has_event (w_events s) m = false \/ In m ["error"; "ready"; "shutdown"]%string -> False).
    { intros m I E A. apply rs_inj in E. destruct (ST m (eq_sym E) I) as [A1 A2]. destruct A as [A|A].
      - rewrite (HE m A2) in A. discriminate.
      - rewrite A2 in A1. cbn [In] in A. destruct A as [<-|[<-|[<-|[]]]]; destruct A1 as [A1|A1]; discriminate A1. }
    unfold producer_rust in O. rewrite !in_app_iff in O.
    destruct O as [O|[O|[O|[O|[O|[O|O]]]]]].
    + plan_cases O; subst o; open_ops K; destruct (rq_ref x); discriminate K.
    + plan_cases O; subst o; open_ops K; discriminate K.
    + plan_cases O; subst o.
      * open_ops K. destruct (ev_ref x); discriminate K.
      * unfold op_event_emitter, get_reference, need in *. destruct (ev_ref x) as [q'|] eqn:Q'; cbn [bind rel_forced] in *; [|discriminate K].
        assert (MM : module_name q' = module_name q) by (apply rs_inj; apply (f_equal third) in K; exact K).
        assert (x = e) as -> by exact (OWN x q' X Q' MM). assert (q' = q) as -> by congruence. reflexivity.
    + plan_cases O; subst o; open_ops K; discriminate K.
    + plan_cases O; subst o; open_ops K; try discriminate K.
      exfalso. apply NM. apply (f_equal third) in K. apply rs_inj. symmetry. exact K.
    + exfalso. unfold ops_static in O. rewrite !in_app_iff in O. destruct O as [O|[O|[O|O]]].
      * destruct (has_event (w_events s) "connected") eqn:HV; [destruct O|]. destruct O as [O|[O|[]]]; subst o; [discriminate K|].
        apply (f_equal third) in K. apply (NF "connected"%string); [cbn [In]; tauto | exact K | left; exact HV].
      * destruct (has_event (w_events s) "disconnected") eqn:HV; [destruct O|]. destruct O as [O|[O|[]]]; subst o; [discriminate K|].
        apply (f_equal third) in K. apply (NF "disconnected"%string); [cbn [In]; tauto | exact K | left; exact HV].
      * cbn [In] in O. destruct O as [O|[O|[O|[O|[O|[O|[]]]]]]]; subst o; try discriminate K; apply (f_equal third) in K.
        -- apply (NF "error"%string); [cbn [In]; tauto | exact K | right; cbn [In]; tauto].
        -- apply (NF "ready"%string); [cbn [In]; tauto | exact K | right; cbn [In]; tauto].
        -- apply (NF "shutdown"%string); [cbn [In]; tauto | exact K | right; cbn [In]; tauto].
      * cbn [In] in O. destruct O as [O|[O|[O|[]]]]; subst o; discriminate K.
    + exfalso. plan_cases O; subst o; open_ops K; discriminate K.
  - injection D as <-. eexists. exact F.
Qed.
Print Assumptions C70_event_broadcasts_partial.

(** the login and the disconnection of the chat example *)
Example C70_example :
  chat_files (w_server ++ [impl; txt "handlers"; txt "userlogin_request.rs"]) =
    Some (DHandler (txt "UserLogin::Request") (txt "userlogin_request")
      (Some [(txt "Accept", [(txt "broadcast_events_userconnected", false); (txt "broadcast_events_message", false)]); (txt "Deny", [])])) /\
  chat_files (w_server ++ [impl; txt "emitters"; txt "disconnected.rs"]) =
    Some (DEmitter true (txt "disconnected") (txt "disconnected")
      [(txt "broadcast_events_message", true); (txt "broadcast_events_userdisconnected", false)]).
Proof. split; vm_compute; reflexivity. Qed.

(** a request with one action only: its broadcast, accepted by the parser, is not
    in the handler *)
Theorem C70_single_action_refuted : exists t p s p' cd pd f f' r a q b m, wf_accepts t p s p' /\
  render (Some cd) (Some pd) s p' f = (f', Ok tt) /\ w_requests s = [r] /\ rq_ref r = Some q /\ rq_actions r = [a] /\
  ac_bcs a = [b] /\ bc_opt b = false /\
  f' (pd ++ [impl; txt "handlers"; rs (module_name q)]) = Some (DHandler (rust_path q) m None).
Proof.
  set (t := odd_text "A.Ping !A.E { (Ok > A.R) > M; } ").
  exists t, odd_store, (fst (made t odd_store)), (snd (made t odd_store)), w_client, w_server, w_files. eexists.
  exists (nth 0 (w_requests (fst (made t odd_store))) (request_new [])). eexists _, _, _, _.
  split; [apply made_accepts; vm_compute; reflexivity|]. split; [apply render_pair; vm_compute; reflexivity|].
  split; [vm_compute; reflexivity|]. split; [vm_compute; reflexivity|]. split; [vm_compute; reflexivity|].
  split; [vm_compute; reflexivity|]. split; [vm_compute; reflexivity|]. vm_compute. reflexivity.
Qed.
Print Assumptions C70_single_action_refuted.
