(** Facts about file operations and names. *)
From Coq Require Import String Ascii NArith List Arith Lia Bool.
From Verif Require Import Bytes ProtoModel WfModel WfProofs RenderModel.
Import ListNotations.
Close Scope string_scope.
Open Scope list_scope.
Open Scope nat_scope.

Lemma teqb_iff : forall a b, teqb a b = true <-> a = b.
Proof.
  induction a as [|x a IH]; intros [|y b]; cbn [teqb]; split; intro H; try discriminate; try reflexivity.
  - apply andb_true_iff in H as [H1 H2]. apply Ascii.eqb_eq in H1. apply IH in H2. congruence.
  - injection H as -> ->. apply andb_true_iff. split; [apply Ascii.eqb_refl | apply IH; reflexivity].
Qed.
Lemma peqb_iff : forall a b, peqb a b = true <-> a = b.
Proof.
  induction a as [|x a IH]; intros [|y b]; cbn [peqb]; split; intro H; try discriminate; try reflexivity.
  - apply andb_true_iff in H as [H1 H2]. apply teqb_iff in H1. apply IH in H2. congruence.
  - injection H as -> ->. apply andb_true_iff. split; [apply teqb_iff; reflexivity | apply IH; reflexivity].
Qed.
Lemma upd_same : forall f p d, upd f p d p = Some d.
Proof. intros f p d. unfold upd. rewrite (proj2 (peqb_iff p p) eq_refl). reflexivity. Qed.
Lemma upd_other : forall f p q d, p <> q -> upd f p d q = f q.
Proof.
  intros f p q d H. unfold upd. destruct (peqb p q) eqn:E; [|reflexivity]. apply peqb_iff in E. contradiction.
Qed.
Lemma text_dec : forall a b : text, {a = b} + {a <> b}.
Proof. apply list_eq_dec. apply Ascii.ascii_dec. Qed.
Lemma fpath_dec : forall a b : fpath, {a = b} + {a <> b}.
Proof. apply list_eq_dec. apply text_dec. Qed.

(** ** Sequences of operations, each with its destination folder *)

Fixpoint run_seq (l : list (fpath * op)) (f : fs) : fs * res unit rerr :=
  match l with
  | [] => (f, Ok tt)
  | (base, o) :: l =>
    match exec base o f with
    | (f', Ok _) => run_seq l f'
    | r => r
    end
  end.

Lemma run_as_seq : forall base ops f, run base ops f = run_seq (map (pair base) ops) f.
Proof.
  intros base ops. induction ops as [|o ops IH]; intro f; [reflexivity|]. cbn [run map run_seq].
  destruct (exec base o f) as [f' [u|e|]]; [apply IH | reflexivity | reflexivity].
Qed.

Lemma run_seq_app : forall a b f, run_seq (a ++ b) f =
  match run_seq a f with (f', Ok _) => run_seq b f' | r => r end.
Proof.
  induction a as [|[base o] a IH]; intros b f; [reflexivity|]. cbn [app run_seq].
  destruct (exec base o f) as [f' [u|e|]]; [apply IH | reflexivity | reflexivity].
Qed.

Definition targets_ops (dest : fpath) (many : bool) (plan : target -> list op) (l : list target) : list (fpath * op) :=
  flat_map (fun t => map (@pair fpath op (if many then dest ++ [target_dir t] else dest)) (plan t)) l.

Lemma targets_as_seq : forall dest many plan l f,
  run_targets dest many plan l f = run_seq (targets_ops dest many plan l) f.
Proof.
  intros dest many plan l. induction l as [|t l IH]; intro f; [reflexivity|].
  unfold targets_ops. cbn [run_targets flat_map]. rewrite run_seq_app, run_as_seq.
  destruct (run_seq (map _ (plan t)) f) as [f' [u|e|]]; [apply IH | reflexivity | reflexivity].
Qed.

Definition consumer_plan (s : wstore) (p : store) (t : target) : list op :=
  match t with TRust => consumer_rust s p | TTypeScript => consumer_ts s p end.
Definition producer_plan (s : wstore) (p : store) (t : target) : list op :=
  match t with TRust => producer_rust s p | TTypeScript => producer_ts s p end.
Definition side_ops (d : option fpath) (plan : target -> list op) (l : list target) : list (fpath * op) :=
  match d with None => [] | Some d => targets_ops d (1 <? length l) plan l end.

Lemma render_as_seq : forall cd pd s p f c, w_config s = Some c ->
  (cd = None -> cf_consumer c = []) -> (pd = None -> cf_producer c = []) ->
  render cd pd s p f =
  run_seq (side_ops cd (consumer_plan s p) (cf_consumer c) ++ side_ops pd (producer_plan s p) (cf_producer c)) f.
Proof.
  intros cd pd s p f c C A B. unfold render. rewrite C, run_seq_app.
  assert (negb (is_some cd) && nonempty (cf_consumer c) || negb (is_some pd) && nonempty (cf_producer c) = false) as ->.
  { destruct cd, pd; cbn [is_some negb andb orb]; try reflexivity.
    - rewrite (B eq_refl). reflexivity.
    - rewrite (A eq_refl). reflexivity.
    - rewrite (A eq_refl), (B eq_refl). reflexivity. }
  destruct cd as [d|]; cbn [side_ops run_seq].
  - rewrite targets_as_seq.
    change (fun t => match t with TRust => consumer_rust s p | TTypeScript => consumer_ts s p end) with (consumer_plan s p).
    destruct (run_seq _ f) as [f' [u|e|]]; [|reflexivity|reflexivity].
    destruct pd; [apply targets_as_seq | reflexivity].
  - destruct pd; [apply targets_as_seq | reflexivity].
Qed.

(** when it does not even start, nothing is touched *)
Lemma render_refused : forall cd pd s p f,
  (w_config s = None \/ exists c, w_config s = Some c /\
     ((cd = None /\ cf_consumer c <> []) \/ (pd = None /\ cf_producer c <> []))) ->
  exists e, render cd pd s p f = (f, Err e).
Proof.
  intros cd pd s p f [C|(c & C & H)]; unfold render; rewrite C; [eexists; reflexivity|].
  assert (negb (is_some cd) && nonempty (cf_consumer c) || negb (is_some pd) && nonempty (cf_producer c) = true) as ->.
  { destruct H as [[-> H]|[-> H]]; cbn [is_some negb andb].
    - destruct (cf_consumer c); [contradiction | reflexivity].
    - destruct (cf_producer c); [contradiction|]. apply orb_true_r. }
  eexists. reflexivity.
Qed.

(** the file an operation writes; the one it writes even if it exists; the
    manifests it may change *)
Definition written (bo : fpath * op) : option fpath :=
  match snd bo with Put _ (Ok q) _ => Some (fst bo ++ q) | _ => None end.
Definition forced (bo : fpath * op) : option fpath :=
  match snd bo with Put false (Ok q) _ => Some (fst bo ++ q) | _ => None end.
Definition merges (bo : fpath * op) (p : fpath) : Prop :=
  match snd bo with Merge file _ => exists k, p = firstn k (fst bo) ++ [file] | _ => False end.

Lemma forced_written : forall bo p, forced bo = Some p -> written bo = Some p.
Proof. intros [base [[|] [q|e|] body|file deps]] p; cbn; congruence. Qed.

Lemma manifest_at : forall f file base k p, manifest f file base k = Some p ->
  (exists j, p = firstn j base ++ [file]) /\ f p <> None.
Proof.
  intros f file base k. induction k as [|k IH]; intros p H; [discriminate|]. cbn [manifest] in H.
  remember (firstn (S k) base ++ [file]) as m eqn:M.
  destruct (is_some (f m)) eqn:E; [|apply IH; exact H].
  inversion H; subst p. split; [exists (S k); exact M|]. intro K. rewrite K in E. discriminate.
Qed.

Lemma exec_other : forall base o f f' r p, exec base o f = (f', r) -> written (base, o) <> Some p ->
  ~ merges (base, o) p -> f' p = f p.
Proof.
  intros base [keep dest body|file deps] f f' r p H W M; cbn [exec] in H; cbn [written merges fst snd] in W, M.
  - destruct dest as [q|e|]; [|congruence|congruence].
    destruct (keep && is_some (f (base ++ q))); [congruence|].
    destruct body as [d|e|]; [|congruence|congruence]. injection H as <- _. apply upd_other. intro K. apply W. rewrite K. reflexivity.
  - destruct (manifest f file base (length base)) as [m|] eqn:E; [|congruence].
    apply manifest_at in E as [(j & ->) _].
    destruct (f (firstn j base ++ [file])) as [[]|]; try congruence. injection H as <- _. apply upd_other.
    intro K. apply M. exists j. congruence.
Qed.

Lemma exec_kept : forall base o f f' r p d, exec base o f = (f', r) -> forced (base, o) <> Some p ->
  ~ merges (base, o) p -> f p = Some d -> f' p = Some d.
Proof.
  intros base o f f' r p d H W M E. destruct o as [[|] dest body|file deps].
  - cbn [exec] in H. destruct dest as [q|e|]; [|congruence|congruence].
    destruct (is_some (f (base ++ q))) eqn:S; cbn [andb] in H; [congruence|].
    destruct body as [x|e|]; [|congruence|congruence]. injection H as <- _. rewrite upd_other; [exact E|].
    intro K. rewrite K, E in S. discriminate.
  - rewrite <- E. eapply exec_other; [exact H | exact W | exact M].
  - rewrite <- E. eapply exec_other; [exact H | discriminate | exact M].
Qed.

Lemma exec_mono : forall base o f f' r p, exec base o f = (f', r) -> f p <> None -> f' p <> None.
Proof.
  intros base [keep dest body|file deps] f f' r p H E; cbn [exec] in H.
  - destruct dest as [q|e|]; [|congruence|congruence].
    destruct (keep && is_some (f (base ++ q))); [congruence|].
    destruct body as [d|e|]; [|congruence|congruence]. injection H as <- _.
    destruct (fpath_dec (base ++ q) p) as [<-|N]; [rewrite upd_same; discriminate | rewrite (upd_other _ _ _ _ N); exact E].
  - destruct (manifest f file base (length base)) as [m|]; [|congruence].
    destruct (f m) as [[]|]; try congruence. injection H as <- _.
    destruct (fpath_dec m p) as [<-|N]; [rewrite upd_same; discriminate | rewrite (upd_other _ _ _ _ N); exact E].
Qed.

Lemma exec_exists : forall base o f f' u p, exec base o f = (f', Ok u) -> written (base, o) = Some p -> f' p <> None.
Proof.
  intros base [keep dest body|file deps] f f' u p H W; cbn [exec] in H; cbn [written fst snd] in W; [|discriminate].
  destruct dest as [q|e|]; [|discriminate|discriminate]. injection W as <-.
  destruct (keep && is_some (f (base ++ q))) eqn:K.
  - injection H as <- _. apply andb_true_iff in K as [_ K]. destruct (f (base ++ q)); discriminate.
  - destruct body as [d|e|]; [|discriminate|discriminate]. injection H as <- _. rewrite upd_same. discriminate.
Qed.

Lemma seq_other : forall l f f' r p, run_seq l f = (f', r) ->
  (forall x, In x l -> written x <> Some p /\ ~ merges x p) -> f' p = f p.
Proof.
  induction l as [|[base o] l IH]; intros f f' r p H A; cbn [run_seq] in H; [congruence|].
  destruct (exec base o f) as [g v] eqn:E. destruct (A (base, o) (or_introl eq_refl)) as [A1 A2].
  pose proof (exec_other _ _ _ _ _ p E A1 A2) as G.
  destruct v as [u|e|]; [|congruence|congruence]. rewrite <- G. eapply IH; [exact H|]. intros x X. apply A. right. exact X.
Qed.

Lemma seq_kept : forall l f f' r p d, run_seq l f = (f', r) ->
  (forall x, In x l -> forced x <> Some p /\ ~ merges x p) -> f p = Some d -> f' p = Some d.
Proof.
  induction l as [|[base o] l IH]; intros f f' r p d H A D; cbn [run_seq] in H; [congruence|].
  destruct (exec base o f) as [g v] eqn:E. destruct (A (base, o) (or_introl eq_refl)) as [A1 A2].
  pose proof (exec_kept _ _ _ _ _ p d E A1 A2 D) as G.
  destruct v as [u|e|]; [|congruence|congruence]. eapply IH; [exact H| |exact G]. intros x X. apply A. right. exact X.
Qed.

Lemma seq_mono : forall l f f' r p, run_seq l f = (f', r) -> f p <> None -> f' p <> None.
Proof.
  induction l as [|[base o] l IH]; intros f f' r p H D; cbn [run_seq] in H; [congruence|].
  destruct (exec base o f) as [g v] eqn:E. pose proof (exec_mono _ _ _ _ _ p E D) as G.
  destruct v as [u|e|]; [|congruence|congruence]. eapply IH; [exact H | exact G].
Qed.

Lemma seq_exists : forall l f f' u x p, run_seq l f = (f', Ok u) -> In x l -> written x = Some p -> f' p <> None.
Proof.
  induction l as [|[base o] l IH]; intros f f' u x p H X W; [contradiction|]. cbn [run_seq] in H.
  destruct (exec base o f) as [g [v|e|]] eqn:E; [|discriminate|discriminate].
  destruct X as [<-|X]; [|exact (IH _ _ _ _ _ H X W)].
  eapply seq_mono; [exact H|]. eapply exec_exists; [exact E | exact W].
Qed.

(** the last operation that insists on a file determines it *)
Lemma seq_last : forall a b base q body f f' u,
  run_seq (a ++ (base, Put false (Ok q) body) :: b) f = (f', Ok u) ->
  (forall x, In x b -> forced x <> Some (base ++ q) /\ ~ merges x (base ++ q)) ->
  exists d, body = Ok d /\ f' (base ++ q) = Some d.
Proof.
  intros a b base q body f f' u H A. rewrite run_seq_app in H.
  destruct (run_seq a f) as [g [v|e|]]; [|discriminate|discriminate]. cbn [run_seq exec andb] in H.
  destruct body as [d|e|]; [|discriminate|discriminate]. exists d. split; [reflexivity|].
  eapply seq_kept; [exact H | exact A | apply upd_same].
Qed.

(** the first file put where none was, when nobody insists *)
Lemma seq_first : forall a b base q body f f' u,
  run_seq (a ++ (base, Put true (Ok q) body) :: b) f = (f', Ok u) ->
  (forall x, In x a -> written x <> Some (base ++ q) /\ ~ merges x (base ++ q)) ->
  (forall x, In x b -> forced x <> Some (base ++ q) /\ ~ merges x (base ++ q)) ->
  f (base ++ q) = None ->
  exists d, body = Ok d /\ f' (base ++ q) = Some d.
Proof.
  intros a b base q body f f' u H A B N. rewrite run_seq_app in H.
  destruct (run_seq a f) as [g [v|e|]] eqn:E; [|discriminate|discriminate].
  pose proof (seq_other _ _ _ _ (base ++ q) E A) as G. rewrite N in G.
  cbn [run_seq exec andb] in H. rewrite G in H. cbn [is_some] in H.
  destruct body as [d|e|]; [|discriminate|discriminate]. exists d. split; [reflexivity|].
  eapply seq_kept; [exact H | exact B | apply upd_same].
Qed.

(** ** Names *)

Lemma lower_app : forall a b, lower (a ++ b) = lower a ++ lower b.
Proof. intros. apply map_app. Qed.

Definition und : ascii := "_".
Definition dot : ascii := ".".
Definition mod_char (c : ascii) : ascii := if Ascii.eqb (lower_char c) dot then und else lower_char c.

Lemma module_map : forall r, module_name r = map mod_char r.
Proof.
  unfold module_name, replace_dot, lower. induction r as [|c r IH]; [reflexivity|].
  cbn [map flat_map]. rewrite IH. unfold mod_char, dot. destruct (Ascii.eqb (lower_char c) "."); reflexivity.
Qed.

Lemma lower_char_cases : forall c, lower_char (lower_char c) = lower_char c /\
  (lower_char c = dot <-> c = dot) /\ (lower_char c = und <-> c = und).
Proof.
  intro c. destruct c as [[] [] [] [] [] [] [] []]; vm_compute; repeat split; intro H; try discriminate H; try reflexivity.
Qed.

(** without underscores the module name forgets only the case *)
Lemma module_inj : forall a b, ~ In und a -> ~ In und b -> module_name a = module_name b -> lower a = lower b.
Proof.
  intros a. rewrite module_map. induction a as [|x a IH]; intros [|y b] A B H; rewrite ?module_map in *; cbn [map] in H;
    try discriminate; [reflexivity|].
  injection H as H1 H2. cbn [lower map]. f_equal.
  - unfold mod_char in H1.
    destruct (lower_char_cases x) as (_ & X1 & X2). destruct (lower_char_cases y) as (_ & Y1 & Y2).
    destruct (Ascii.eqb (lower_char x) dot) eqn:E1; destruct (Ascii.eqb (lower_char y) dot) eqn:E2.
    + apply Ascii.eqb_eq in E1, E2. congruence.
    + exfalso. apply B. left. symmetry in H1. exact (proj1 Y2 H1).
    + exfalso. apply A. left. exact (proj1 X2 H1).
    + exact H1.
  - apply IH; [intro K; apply A; right; exact K | intro K; apply B; right; exact K |].
    rewrite module_map. exact H2.
Qed.

(** and two references share a module exactly when they are equal up to case and
    up to dots and underscores *)
Lemma module_dot : forall r, In dot r -> In und (module_name r).
Proof.
  intros r H. rewrite module_map. apply in_map_iff. exists dot. split; [reflexivity | exact H].
Qed.

(** ** Final contents, path by path *)

(** two ways of describing what happens to one file *)
Definition manifest_name (t : text) : Prop := t = txt "Cargo.toml" \/ t = txt "package.json".
Definition wf_op (bo : fpath * op) : Prop :=
  match snd bo with
  | Put _ (Ok q) _ => exists r t, q = r ++ [t] /\ ~ manifest_name t
  | Put _ _ _ => True
  | Merge file _ => manifest_name file
  end.

Definition merged (deps required : list (text * text)) : list (text * text) :=
  fold_left (fun l kv => insert l (fst kv) (snd kv)) required deps.

Definition effect (e : fs) (q : fpath) (v : option doc) (bo : fpath * op) : option doc :=
  match snd bo with
  | Put keep (Ok r) (Ok d) =>
    if peqb (fst bo ++ r) q then (if keep then match v with Some x => Some x | None => Some d end else Some d) else v
  | Put keep (Ok r) _ => v
  | Put _ _ _ => v
  | Merge file required =>
    match manifest e file (fst bo) (length (fst bo)) with
    | Some m => if peqb m q then match v with Some (DManifest rest deps) => Some (DManifest rest (merged deps required)) | _ => v end else v
    | None => v
    end
  end.

(** where manifests are does not change *)
Definition same_manifests (f g : fs) : Prop := forall r t, manifest_name t -> is_some (f (r ++ [t])) = is_some (g (r ++ [t])).

Lemma same_manifest : forall f g file base k, same_manifests f g -> manifest_name file ->
  manifest f file base k = manifest g file base k.
Proof.
  intros f g file base k S N. induction k as [|k IH]; [reflexivity|]. cbn [manifest].
  rewrite (S (firstn (Datatypes.S k) base) file N), IH. reflexivity.
Qed.

Lemma exec_manifests : forall base o f f' r, wf_op (base, o) -> exec base o f = (f', r) -> same_manifests f f'.
Proof.
  intros base o f f' r W H q t N. destruct o as [keep dest body|file deps]; cbn [exec] in H; cbn [wf_op snd] in W.
  - destruct dest as [x|e|]; [|congruence|congruence]. destruct W as (r0 & t0 & -> & T).
    destruct (keep && is_some (f (base ++ r0 ++ [t0]))); [congruence|].
    destruct body as [d|e|]; [|congruence|congruence]. injection H as <- _. rewrite upd_other; [reflexivity|].
    rewrite app_assoc. intro K. apply app_inj_tail in K as [_ ->]. contradiction.
  - destruct (manifest f file base (length base)) as [m|] eqn:E; [|congruence].
    apply manifest_at in E as [_ E]. destruct (f m) as [[]|] eqn:F; try congruence. injection H as <- _.
    destruct (fpath_dec m (q ++ [t])) as [->|D]; [rewrite upd_same, F; reflexivity | rewrite (upd_other _ _ _ _ D); reflexivity].
Qed.

Lemma exec_effect : forall base o f f' u e q, wf_op (base, o) -> exec base o f = (f', Ok u) -> same_manifests e f ->
  f' q = effect e q (f q) (base, o).
Proof.
  intros base o f f' u e q W H S. unfold effect. destruct o as [keep dest body|file deps]; cbn [exec fst snd] in *.
  - destruct dest as [x|er|]; [|discriminate|discriminate].
    destruct body as [d|er|].
    + destruct (peqb (base ++ x) q) eqn:P.
      * apply peqb_iff in P. subst q. destruct keep; cbn [andb] in H.
        -- destruct (f (base ++ x)) as [y|] eqn:F; cbn [is_some] in H; injection H as <- _; [exact F | apply upd_same].
        -- injection H as <- _. apply upd_same.
      * assert (base ++ x <> q) as D by (intro K; rewrite (proj2 (peqb_iff _ _) K) in P; discriminate).
        destruct (keep && is_some (f (base ++ x))); injection H as <- _; [reflexivity | apply upd_other; exact D].
    + destruct (keep && is_some (f (base ++ x))); [congruence | discriminate].
    + destruct (keep && is_some (f (base ++ x))); [congruence | discriminate].
  - cbn [wf_op snd] in W. rewrite (same_manifest e f file base _ S W).
    destruct (manifest f file base (length base)) as [m|]; [|discriminate].
    destruct (f m) as [dm|] eqn:F; [|discriminate]. destruct dm; try discriminate. injection H as <- _.
    destruct (peqb m q) eqn:P.
    + apply peqb_iff in P. subst q. rewrite F, upd_same. reflexivity.
    + apply upd_other. intro K. rewrite (proj2 (peqb_iff _ _) K) in P. discriminate.
Qed.

Lemma same_refl : forall f, same_manifests f f.
Proof. intros f r t _. reflexivity. Qed.
Lemma same_trans : forall f g h, same_manifests f g -> same_manifests g h -> same_manifests f h.
Proof. intros f g h A B r t N. rewrite (A r t N). apply B. exact N. Qed.
Lemma same_sym : forall f g, same_manifests f g -> same_manifests g f.
Proof. intros f g A r t N. symmetry. apply A. exact N. Qed.

Lemma seq_manifests : forall l f f' r, Forall wf_op l -> run_seq l f = (f', r) -> same_manifests f f'.
Proof.
  induction l as [|[base o] l IH]; intros f f' r W H; cbn [run_seq] in H.
  - injection H as <- _. apply same_refl.
  - inversion W as [|? ? W1 W2]; subst. destruct (exec base o f) as [g v] eqn:E.
    pose proof (exec_manifests _ _ _ _ _ W1 E) as S.
    destruct v as [u|e|]; [|injection H as <- _; exact S|injection H as <- _; exact S].
    eapply same_trans; [exact S | eapply IH; [exact W2 | exact H]].
Qed.

Lemma seq_effect : forall l f f' u e q, Forall wf_op l -> run_seq l f = (f', Ok u) -> same_manifests e f ->
  f' q = fold_left (effect e q) l (f q).
Proof.
  induction l as [|[base o] l IH]; intros f f' u e q W H S; cbn [run_seq] in H.
  - injection H as <- _. reflexivity.
  - inversion W as [|? ? W1 W2]; subst. destruct (exec base o f) as [g [v|er|]] eqn:E; [|discriminate|discriminate].
    cbn [fold_left]. rewrite <- (exec_effect base o f g v e q W1 E S). eapply IH; [exact W2 | exact H|].
    eapply same_trans; [exact S | eapply exec_manifests; [exact W1 | exact E]].
Qed.

(** *** merging dependencies *)

Lemma insert_same : forall d k v w, insert (insert d k v) k w = insert d k w.
Proof.
  induction d as [|[k' v'] d IH]; intros k v w; cbn [insert].
  - rewrite (proj2 (teqb_iff k k) eq_refl). reflexivity.
  - destruct (teqb k' k) eqn:E; cbn [insert].
    + rewrite (proj2 (teqb_iff k k) eq_refl). reflexivity.
    + rewrite E, IH. reflexivity.
Qed.
Lemma insert_swap : forall d k v j w, j <> k -> In j (map fst d) ->
  insert (insert d k v) j w = insert (insert d j w) k v.
Proof.
  induction d as [|[k' v'] d IH]; intros k v j w N I; [contradiction|]. cbn [insert].
  destruct (teqb k' k) eqn:E; destruct (teqb k' j) eqn:F; cbn [insert].
  - apply teqb_iff in E, F. congruence.
  - apply teqb_iff in E. subst k'. rewrite F. rewrite (proj2 (teqb_iff k k) eq_refl). reflexivity.
  - apply teqb_iff in F. subst k'. rewrite (proj2 (teqb_iff j j) eq_refl), E. reflexivity.
  - rewrite F, E. rewrite IH; [reflexivity | exact N|]. destruct I as [I|I]; [|exact I]. cbn [fst] in I.
    rewrite (proj2 (teqb_iff _ _) I) in F. discriminate.
Qed.
Lemma insert_keys : forall d k v j, In j (map fst (insert d k v)) <-> j = k \/ In j (map fst d).
Proof.
  induction d as [|[k' v'] d IH]; intros k v j; cbn [insert map fst].
  - split; [intros [H|[]]; left; congruence | intros [->|[]]; left; reflexivity].
  - destruct (teqb k' k) eqn:E; cbn [map fst In].
    + apply teqb_iff in E. subst k'. intuition congruence.
    + rewrite IH. intuition.
Qed.
Lemma merged_keys : forall r d j, In j (map fst (merged d r)) <-> In j (map fst r) \/ In j (map fst d).
Proof.
  unfold merged. induction r as [|[k v] r IH]; intros d j; cbn [fold_left map fst snd In]; [intuition|].
  rewrite IH, insert_keys. intuition.
Qed.
Lemma merged_absorb : forall r d k v, (forall j, In j (map fst r) -> In j (map fst d)) ->
  insert (merged (insert d k v) r) k v = insert (merged d r) k v.
Proof.
  unfold merged. induction r as [|[j w] r IH]; intros d k v A; cbn [fold_left fst snd]; [apply insert_same|].
  destruct (text_dec j k) as [->|N].
  - rewrite insert_same. reflexivity.
  - rewrite insert_swap; [|exact N | apply A; left; reflexivity]. apply IH. intros i I. apply insert_keys. right. apply A.
    right. exact I.
Qed.
Lemma merged_app : forall d a b, merged d (a ++ b) = merged (merged d a) b.
Proof. intros. apply fold_left_app. Qed.
Lemma merged_one : forall d k v, merged d [(k, v)] = insert d k v.
Proof. reflexivity. Qed.
Lemma merged_again : forall r d, merged (merged d r) r = merged d r.
Proof.
  induction r as [|[k v] r IH] using rev_ind; intro d; [reflexivity|]. rewrite !merged_app.
  rewrite !merged_one, merged_absorb; [rewrite IH; reflexivity|]. intros j J. apply merged_keys. left. exact J.
Qed.

Fixpoint value (d : list (text * text)) (k : text) : option text :=
  match d with [] => None | (k', v) :: d => if teqb k' k then Some v else value d k end.
Lemma value_insert : forall d k v j, value (insert d k v) j = if teqb k j then Some v else value d j.
Proof.
  induction d as [|[k' v'] d IH]; intros k v j; cbn [insert value].
  - reflexivity.
  - destruct (teqb k' k) eqn:E; cbn [value].
    + apply teqb_iff in E. subst k'. destruct (teqb k j); reflexivity.
    + rewrite IH. destruct (teqb k' j) eqn:F; destruct (teqb k j) eqn:G; try reflexivity.
      apply teqb_iff in F, G. subst. rewrite (proj2 (teqb_iff j j) eq_refl) in E. discriminate.
Qed.
Lemma value_merged : forall r d j, value (merged d r) j =
  match value (rev r) j with Some v => Some v | None => value d j end.
Proof.
  induction r as [|[k v] r IH] using rev_ind; intros d j; [reflexivity|].
  rewrite merged_app, rev_app_distr. cbn [rev app]. rewrite merged_one, value_insert. cbn [value]. destruct (teqb k j); [reflexivity | apply IH].
Qed.

(** *** running twice *)

Inductive shape := Keep | Const (d : doc) | OrElse (d : doc).
Definition act (s : shape) (v : option doc) : option doc :=
  match s with Keep => v | Const d => Some d | OrElse d => match v with Some x => Some x | None => Some d end end.
Lemma act_idem : forall s v, act s (act s v) = act s v.
Proof. intros [|d|d] [x|]; reflexivity. Qed.
Lemma act_comp : forall a b, exists c, forall v, act b (act a v) = act c v.
Proof.
  intros [|x|x] [|y|y].
  - exists Keep. reflexivity.
  - exists (Const y). reflexivity.
  - exists (OrElse y). reflexivity.
  - exists (Const x). reflexivity.
  - exists (Const y). reflexivity.
  - exists (Const x). reflexivity.
  - exists (OrElse x). intros [v|]; reflexivity.
  - exists (Const y). reflexivity.
  - exists (OrElse x). intros [v|]; reflexivity.
Qed.

Lemma effect_shape : forall e q bo, wf_op bo -> (forall r t, q = r ++ [t] -> ~ manifest_name t) ->
  exists s, forall v, effect e q v bo = act s v.
Proof.
  intros e q [base [keep dest body|file deps]] W N; unfold effect; cbn [fst snd].
  - destruct dest as [r|er|]; [|exists Keep; reflexivity|exists Keep; reflexivity].
    destruct body as [d|er|]; [|exists Keep; reflexivity|exists Keep; reflexivity].
    destruct (peqb (base ++ r) q); [|exists Keep; reflexivity].
    destruct keep; [exists (OrElse d); reflexivity | exists (Const d); reflexivity].
  - cbn [wf_op snd] in W. destruct (manifest e file base (length base)) as [m|] eqn:E; [|exists Keep; reflexivity].
    apply manifest_at in E as [(j & ->) _]. destruct (peqb (firstn j base ++ [file]) q) eqn:P; [|exists Keep; reflexivity].
    apply peqb_iff in P. exfalso. exact (N _ _ (eq_sym P) W).
Qed.

Lemma effects_shape : forall e q l, Forall wf_op l -> (forall r t, q = r ++ [t] -> ~ manifest_name t) ->
  exists s, forall v, fold_left (effect e q) l v = act s v.
Proof.
  intros e q l W N. induction W as [|bo l W1 W2 IH]; [exists Keep; reflexivity|].
  destruct IH as (s & IH). destruct (effect_shape e q bo W1 N) as (s1 & S1). destruct (act_comp s1 s) as (c & C).
  exists c. intro v. cbn [fold_left]. rewrite S1, IH. apply C.
Qed.

Definition collect (e : fs) (q : fpath) (l : list (fpath * op)) : list (text * text) :=
  flat_map (fun bo => match snd bo with
                      | Merge file required =>
                        match manifest e file (fst bo) (length (fst bo)) with
                        | Some m => if peqb m q then required else []
                        | None => []
                        end
                      | _ => [] end) l.

Lemma effects_manifest : forall e r t l v, Forall wf_op l -> manifest_name t ->
  fold_left (effect e (r ++ [t])) l v =
  match v with Some (DManifest rest deps) => Some (DManifest rest (merged deps (collect e (r ++ [t]) l))) | _ => v end.
Proof.
  intros e r t l v W N. revert v. induction W as [|[base o] l W1 W2 IH]; intro v.
  - cbn [fold_left]. destruct v as [[]|]; reflexivity.
  - cbn [fold_left]. rewrite IH. unfold collect. cbn [flat_map fst snd]. fold (collect e (r ++ [t]) l).
    destruct o as [keep dest body|file deps]; cbn [wf_op snd] in W1.
    + assert (effect e (r ++ [t]) v (base, Put keep dest body) = v) as ->; [|reflexivity].
      unfold effect. cbn [fst snd]. destruct dest as [x|er|]; [|reflexivity|reflexivity].
      destruct body as [d|er|]; [|reflexivity|reflexivity].
      destruct W1 as (r0 & t0 & -> & T). destruct (peqb _ _) eqn:P; [|reflexivity].
      apply peqb_iff in P. rewrite app_assoc in P. apply app_inj_tail in P as [_ ->]. contradiction.
    + unfold effect. cbn [fst snd].
      destruct (manifest e file base (length base)) as [m|]; [|reflexivity].
      destruct (peqb m (r ++ [t])); [|reflexivity]. destruct v as [[]|]; try reflexivity.
      rewrite merged_app. reflexivity.
Qed.

Lemma split_last : forall q : fpath, q = [] \/ exists r t, q = r ++ [t].
Proof. intro q. destruct q as [|t r] using rev_ind; [left; reflexivity | right; eexists _, _; reflexivity]. Qed.

Lemma manifest_name_dec : forall t, {manifest_name t} + {~ manifest_name t}.
Proof.
  intro t. unfold manifest_name. destruct (text_dec t (txt "Cargo.toml")) as [->|A]; [left; left; reflexivity|].
  destruct (text_dec t (txt "package.json")) as [->|B]; [left; right; reflexivity|]. right. intros [K|K]; contradiction.
Defined.

Lemma effects_again : forall e q l v, Forall wf_op l ->
  fold_left (effect e q) l (fold_left (effect e q) l v) = fold_left (effect e q) l v.
Proof.
  intros e q l v W. destruct (split_last q) as [->|(r & t & ->)].
  - destruct (effects_shape e [] l W) as (s & S).
    + intros r t K. destruct r; discriminate.
    + rewrite !S. apply act_idem.
  - destruct (manifest_name_dec t) as [N|N].
    + rewrite !(effects_manifest e r t l _ W N). destruct v as [[]|]; try reflexivity. rewrite merged_again. reflexivity.
    + destruct (effects_shape e (r ++ [t]) l W) as (s & S).
      * intros r' t' K. apply app_inj_tail in K as [_ <-]. exact N.
      * rewrite !S. apply act_idem.
Qed.

Definition is_man (v : option doc) : bool := match v with Some (DManifest _ _) => true | _ => false end.
Definition same_kinds (f g : fs) : Prop := forall r t, manifest_name t -> is_man (f (r ++ [t])) = is_man (g (r ++ [t])).
Lemma kinds_refl : forall f, same_kinds f f.
Proof. intros f r t _. reflexivity. Qed.
Lemma kinds_trans : forall f g h, same_kinds f g -> same_kinds g h -> same_kinds f h.
Proof. intros f g h A B r t N. rewrite (A r t N). apply B. exact N. Qed.
Lemma kinds_sym : forall f g, same_kinds f g -> same_kinds g f.
Proof. intros f g A r t N. symmetry. apply A. exact N. Qed.

Lemma exec_kinds : forall base o f f' r, wf_op (base, o) -> exec base o f = (f', r) -> same_kinds f f'.
Proof.
  intros base o f f' r W H q t N. destruct o as [keep dest body|file deps]; cbn [exec] in H; cbn [wf_op snd] in W.
  - destruct dest as [x|e|]; [|congruence|congruence]. destruct W as (r0 & t0 & -> & T).
    destruct (keep && is_some (f (base ++ r0 ++ [t0]))); [congruence|].
    destruct body as [d|e|]; [|congruence|congruence]. injection H as <- _. rewrite upd_other; [reflexivity|].
    rewrite app_assoc. intro K. apply app_inj_tail in K as [_ ->]. contradiction.
  - destruct (manifest f file base (length base)) as [m|] eqn:E; [|congruence].
    apply manifest_at in E as [_ E]. destruct (f m) as [[]|] eqn:F; try congruence. injection H as <- _.
    destruct (fpath_dec m (q ++ [t])) as [->|D]; [rewrite upd_same, F; reflexivity | rewrite (upd_other _ _ _ _ D); reflexivity].
Qed.

Lemma seq_kinds : forall l f f' r, Forall wf_op l -> run_seq l f = (f', r) -> same_kinds f f'.
Proof.
  induction l as [|[base o] l IH]; intros f f' r W H; cbn [run_seq] in H.
  - injection H as <- _. apply kinds_refl.
  - inversion W as [|? ? W1 W2]; subst. destruct (exec base o f) as [g v] eqn:E.
    pose proof (exec_kinds _ _ _ _ _ W1 E) as S.
    destruct v as [u|e|]; [|injection H as <- _; exact S|injection H as <- _; exact S].
    eapply kinds_trans; [exact S | eapply IH; [exact W2 | exact H]].
Qed.

Lemma seq_again : forall l f f1 u g, Forall wf_op l -> run_seq l f = (f1, Ok u) ->
  same_manifests f g -> same_kinds f g -> (forall x p, In x l -> written x = Some p -> g p <> None) ->
  exists g', run_seq l g = (g', Ok tt).
Proof.
  induction l as [|[base o] l IH]; intros f f1 u g W H S K A; cbn [run_seq] in H |- *; [eexists; reflexivity|].
  inversion W as [|? ? W1 W2]; subst. destruct (exec base o f) as [h [v|er|]] eqn:E; [|discriminate|discriminate].
  assert (exists g1, exec base o g = (g1, Ok tt)) as (g1 & G1).
  { destruct o as [keep dest body|file deps]; cbn [exec] in E |- *.
    - destruct dest as [x|er|]; [|discriminate|discriminate].
      pose proof (A (base, Put keep (Ok x) body) (base ++ x) (or_introl eq_refl) eq_refl) as X.
      destruct keep; cbn [andb] in E |- *.
      + destruct (g (base ++ x)); [|contradiction]. eexists. reflexivity.
      + destruct body as [d|er|]; [|discriminate|discriminate]. eexists. reflexivity.
    - cbn [wf_op snd] in W1. rewrite <- (same_manifest f g file base _ S W1).
      destruct (manifest f file base (length base)) as [m|] eqn:M; [|discriminate].
      apply manifest_at in M as [(j & ->) _]. pose proof (K (firstn j base) file W1) as KK.
      destruct (f (firstn j base ++ [file])) as [fm|]; [|discriminate]. destruct fm; try discriminate. cbn [is_man] in KK.
      destruct (g (firstn j base ++ [file])) as [gm|]; [|discriminate]. destruct gm; try discriminate. eexists. reflexivity. }
  rewrite G1. eapply IH; [exact W2 | exact H | | |].
  - eapply same_trans; [|eapply exec_manifests; [exact W1 | exact G1]].
    eapply same_trans; [|exact S]. apply same_sym. eapply exec_manifests; [exact W1 | exact E].
  - eapply kinds_trans; [|eapply exec_kinds; [exact W1 | exact G1]].
    eapply kinds_trans; [|exact K]. apply kinds_sym. eapply exec_kinds; [exact W1 | exact E].
  - intros x p X P. eapply exec_mono; [exact G1|]. eapply A; [right; exact X | exact P].
Qed.

Lemma seq_idempotent : forall l f f1 u, Forall wf_op l -> run_seq l f = (f1, Ok u) ->
  exists f2, run_seq l f1 = (f2, Ok tt) /\ forall q, f2 q = f1 q.
Proof.
  intros l f f1 u W H. pose proof (seq_manifests _ _ _ _ W H) as S.
  destruct (seq_again l f f1 u f1 W H S (seq_kinds _ _ _ _ W H)) as (f2 & F2).
  { intros x p X P. eapply seq_exists; [exact H | exact X | exact P]. }
  exists f2. split; [exact F2|]. intro q. rewrite (seq_effect l f1 f2 tt f q W F2 S).
  rewrite (seq_effect l f f1 u f q W H (same_refl f)). apply effects_again. exact W.
Qed.

(** a file somebody insists on does not depend on what was there *)
Lemma forced_const : forall e q l, Forall wf_op l -> forall x, In x l -> forced x = Some q ->
  (forall b k r y, In (b, Put k (Ok r) y) l -> exists d, k = true \/ y = Ok d) ->
  exists d, forall v, fold_left (effect e q) l v = Some d.
Proof.
  intros e q l W. induction W as [|bo l W1 W2 IH]; intros x X F B; [contradiction|]. cbn [fold_left].
  assert (N : forall r t, q = r ++ [t] -> ~ manifest_name t).
  { assert (wf_op x) as WX. { destruct X as [<-|X]; [exact W1|]. rewrite Forall_forall in W2. exact (W2 x X). }
    destruct x as [base [[|] [y|er|] body|file deps]]; cbn [forced fst snd] in F; try discriminate. injection F as <-.
    cbn [wf_op snd] in WX. destruct WX as (r0 & t0 & -> & T). intros r t K. rewrite app_assoc in K.
    apply app_inj_tail in K as [_ <-]. exact T. }
  destruct X as [->|X].
  - destruct (effects_shape e q l W2 N) as (s & S).
    destruct x as [base [[|] [y|er|] body|file deps]]; cbn [forced fst snd] in F; try discriminate. injection F as F.
    destruct (B base false y body (or_introl eq_refl)) as (d & [K|K]); [discriminate|]. subst body.
    assert (forall v, effect e q v (base, Put false (Ok y) (Ok d)) = Some d) as E.
    { intro v. unfold effect. cbn [fst snd]. rewrite (proj2 (peqb_iff _ _) F). reflexivity. }
    destruct s as [|c|c]; [exists d | exists c | exists d]; intro v; rewrite E, S; reflexivity.
  - destruct (IH x X F) as (d & D); [intros b k r y Y; apply (B b k r y); right; exact Y|].
    exists d. intro v. apply D.
Qed.

Lemma seq_bodies : forall l f f' u b r y, run_seq l f = (f', Ok u) -> In (b, Put false (Ok r) y) l -> exists d, y = Ok d.
Proof.
  induction l as [|[base o] l IH]; intros f f' u b r y H X; [contradiction|]. cbn [run_seq] in H.
  destruct (exec base o f) as [g [v|er|]] eqn:E; [|discriminate|discriminate].
  destruct X as [X|X]; [|exact (IH _ _ _ _ _ _ H X)]. injection X as -> ->. cbn [exec andb] in E.
  destruct y as [d|er|]; [eexists; reflexivity | discriminate | discriminate].
Qed.

(** the last list determines a file only it insists on *)
Lemma seq_in : forall a l base q body f f' u,
  run_seq (a ++ l) f = (f', Ok u) -> In (base, Put false (Ok q) body) l ->
  (forall x, In x l -> forced x = Some (base ++ q) -> x = (base, Put false (Ok q) body)) ->
  (forall x, In x l -> ~ merges x (base ++ q)) ->
  exists d, body = Ok d /\ f' (base ++ q) = Some d.
Proof.
  intros a l. revert a. induction l as [|x l IH]; intros a base q body f f' u H I F M; [contradiction|].
  assert (EX : In (base, Put false (Ok q) body) l \/ ~ exists y, In y l /\ forced y = Some (base ++ q)).
  { clear - F. induction l as [|y l IHl].
    - right. intros (y & [] & _).
    - destruct (forced y) as [p|] eqn:E.
      + destruct (fpath_dec p (base ++ q)) as [->|D].
        * left. left. apply F; [right; left; reflexivity | exact E].
        * destruct IHl as [IHl|IHl].
          -- intros z [Z|Z] FZ; (apply F; [|exact FZ]); [left; exact Z | right; right; exact Z].
          -- left. right. exact IHl.
          -- right. intros (z & [->|Z] & FZ); [congruence|]. apply IHl. exists z. split; [exact Z | exact FZ].
      + destruct IHl as [IHl|IHl].
        * intros z [Z|Z] FZ; (apply F; [|exact FZ]); [left; exact Z | right; right; exact Z].
        * left. right. exact IHl.
        * right. intros (z & [->|Z] & FZ); [congruence|]. apply IHl. exists z. split; [exact Z | exact FZ]. }
  destruct EX as [J|J].
  - apply (IH (a ++ [x]) base q body f f' u); [rewrite <- app_assoc; exact H | exact J | |].
    + intros y Y FY. apply F; [right; exact Y | exact FY].
    + intros y Y. apply M. right. exact Y.
  - destruct I as [->|I]; [|exfalso; apply J; eexists; split; [exact I | reflexivity]].
    eapply seq_last; [exact H|]. intros y Y. split; [intro FY; apply J; exists y; split; [exact Y | exact FY] | apply M; right; exact Y].
Qed.

(** ** The plans *)

Definition rel_written (o : op) : option fpath := match o with Put _ (Ok q) _ => Some q | _ => None end.
Definition rel_forced (o : op) : option fpath := match o with Put false (Ok q) _ => Some q | _ => None end.

Lemma written_rel : forall base o, written (base, o) = option_map (app base) (rel_written o).
Proof. intros base [[|] [q|e|] body|file deps]; reflexivity. Qed.
Lemma forced_rel : forall base o, forced (base, o) = option_map (app base) (rel_forced o).
Proof. intros base [[|] [q|e|] body|file deps]; reflexivity. Qed.

Lemma bind_ok : forall (A B : Type) (r : res A rerr) (k : A -> res B rerr) (b : B),
  bind r k = Ok b -> exists a, r = Ok a /\ k a = Ok b.
Proof. intros A B [a|e|] k b H; [exists a; split; [reflexivity | exact H] | discriminate | discriminate]. Qed.

Ltac plan_step H :=
  match type of H with
  | In _ (_ ++ _) => apply in_app_iff in H; destruct H as [H|H]
  | In _ (flat_map _ _) => apply in_flat_map in H; let x := fresh "x" in let X := fresh "X" in destruct H as (x & X & H)
  | In _ (map _ _) => apply in_map_iff in H; let x := fresh "x" in let X := fresh "X" in destruct H as (x & H & X)
  | In _ (if ?b then _ else _) => destruct b
  | In _ [] => destruct H
  | In _ (_ :: _) => destruct H as [H|H]
  end.
Ltac plan_cases H := repeat plan_step H.

(** what a renderer leaves to the user *)
Definition folder (names : list string) (q : fpath) : Prop :=
  exists dir file, q = [dir; file] /\ In dir (map txt names) /\ file <> txt "mod.rs".
Definition user_file (producer : bool) (t : target) (q : fpath) : Prop :=
  match producer, t with
  | true, TRust => q = [txt "context.rs"] \/ folder ["events"; "responses"; "beacons"]%string q
  | true, TTypeScript =>
    q = [txt "context.ts"] \/
    exists dir file, q = [dir; file] /\ In dir (map txt ["events"; "responses"; "beacons"]%string)
  | false, TRust => q = [txt "context.rs"] \/ folder ["events"; "broadcasts"]%string q
  | false, TTypeScript => False
  end.

Definition plan (producer : bool) (s : wstore) (p : store) (t : target) : list op :=
  if producer then producer_plan s p t else consumer_plan s p t.

Ltac open_ops F :=
  unfold op_response, op_handler, op_responses_mod, op_handlers_mod, op_event_impl, op_event_emitter, op_beacon_impl,
    op_beacon_emitter, op_beacon_emitters_mod, op_beacon_impl_mod, op_event_impl_mod, op_event_emitters_mod, static,
    op_protocol, op_identification, op_producer_consumer, op_main, op_broadcast, op_broadcast_mod, op_controller,
    op_client, op_options, op_ts_response, op_ts_handler, op_ts_handlers_mod, op_ts_event_impl, op_ts_event_emitter,
    op_ts_event_emitters_mod, op_ts_beacon_impl, op_ts_beacon_emitter, op_ts_beacon_emitters_mod, op_ts_protocol,
    op_ts_identification, op_ts_main, op_ts_request, op_ts_beacon, op_ts_consumer,
    get_request, get_reference, need in F;
  cbn [rel_forced rel_written] in F.
Ltac open_refs F :=
  repeat match type of F with
  | context [rq_ref ?x] => destruct (rq_ref x); cbn [bind] in F
  | context [ev_ref ?x] => destruct (ev_ref x); cbn [bind] in F
  end.
Ltac plan_all H F :=
  unfold producer_rust, consumer_rust, producer_ts, consumer_ts, ops_static, ops_ts_static, ops_consumer_static in H;
  cbv zeta in H; plan_cases H;
  match type of H with _ = ?o => subst o end; open_ops F; open_refs F; try discriminate F.

Lemma plan_forced : forall pr t s p o q, In o (plan pr s p t) -> rel_forced o = Some q -> ~ user_file pr t q.
Proof.
  intros pr t s p o q H F U.
  destruct pr, t; cbn [user_file plan producer_plan consumer_plan] in U, H; [| | |contradiction].
  - destruct U as [U|(dir & file & U & D & N)]; subst q; plan_all H F;
      injection F as E1 E2; apply N; symmetry; exact E2.
  - destruct U as [U|(dir & file & U & D)]; subst q; plan_all H F;
      injection F as E1 E2; subst dir; cbn [map In] in D; repeat (destruct D as [D|D]; [discriminate D|]); exact D.
  - destruct U as [U|(dir & file & U & D & N)]; subst q; plan_all H F;
      injection F as E1 E2; apply N; symmetry; exact E2.
Qed.

(** which files a renderer writes at all *)
Definition own_file (pr : bool) (t : target) (q : fpath) : Prop :=
  match pr, t with
  | _, TRust => q = [txt "context.rs"] \/ q = [txt "mod.rs"] \/
      (exists dir file, q = [dir; file] /\
         In dir (map txt (if pr then ["events"; "responses"; "beacons"; "implementation"]
                          else ["events"; "broadcasts"; "implementation"])%string)) \/
      (exists dir file, q = [txt "implementation"; dir; file])
  | true, TTypeScript => q = [txt "context.ts"] \/ q = [txt "index.ts"] \/
      (exists dir file, q = [dir; file] /\ In dir (map txt ["events"; "responses"; "beacons"; "implementation"]%string)) \/
      (exists dir file, q = [txt "implementation"; dir; file])
  | false, TTypeScript => q = [txt "index.ts"] \/ q = [txt "options.ts"] \/
      (exists dir file, q = [dir; file] /\ In dir (map txt ["requests"; "beacons"; "interfaces"; "protocol"]%string))
  end.

Lemma plan_written : forall pr t s p o q, In o (plan pr s p t) -> rel_written o = Some q -> own_file pr t q.
Proof.
  intros pr t s p o q H F.
  assert (ID : forall a b, In a (map txt b) -> In a (map txt b)) by (intros; assumption).
  destruct pr, t; cbn [own_file plan producer_plan consumer_plan] in H |- *;
    plan_all H F; injection F as <-;
    first [ left; reflexivity | right; left; reflexivity
          | right; right; left; eexists _, _; split; [reflexivity | cbn [map]; repeat (first [left; reflexivity | right])]
          | right; right; right; eexists _, _; reflexivity
          | right; right; eexists _, _; split; [reflexivity | cbn [map]; repeat (first [left; reflexivity | right])] ].
Qed.

Lemma rs_last : forall m, exists r t, rs m = r ++ t /\ t = txt ".rs".
Proof. intro m. exists m, (txt ".rs"). split; reflexivity. Qed.

Lemma not_manifest : forall m a b, ~ manifest_name (m ++ txt (String "." (String a (String b EmptyString)))).
Proof.
  intros m a b [K|K]; apply (f_equal (@rev ascii)) in K; rewrite rev_app_distr in K; discriminate K.
Qed.

Lemma plan_wf : forall pr t s p base, Forall wf_op (map (@pair fpath op base) (plan pr s p t)).
Proof.
  intros pr t s p base. apply Forall_forall. intros bo B. apply in_map_iff in B as (o & <- & H).
  assert (K : forall n, manifest_name n -> n = txt "Cargo.toml" \/ n = txt "package.json") by (intros n N; exact N).
  destruct o as [keep [q|er|] body|file deps]; [| exact I | exact I |].
  - change (exists r t, q = r ++ [t] /\ ~ manifest_name t). assert (F : rel_written (Put keep (Ok q) body) = Some q) by reflexivity. revert F H.
    generalize (Put keep (Ok q) body) as o. intros o F H.
    destruct pr, t; cbn [plan producer_plan consumer_plan] in H; plan_all H F; injection F as <-;
      first [ eexists [], _; split; [reflexivity|]; first [intros [C|C]; discriminate C | apply not_manifest]
            | eexists [_], _; split; [reflexivity|]; first [intros [C|C]; discriminate C | apply not_manifest]
            | eexists [_; _], _; split; [reflexivity|]; first [intros [C|C]; discriminate C | apply not_manifest] ].
  - change (manifest_name file). assert (F : match Merge file deps with Merge f _ => f = file | _ => False end) by reflexivity. revert F H.
    generalize (Merge file deps) as o. intros o F H.
    destruct pr, t; cbn [plan producer_plan consumer_plan] in H;
      unfold producer_rust, consumer_rust, producer_ts, consumer_ts, ops_static, ops_ts_static, ops_consumer_static in H;
      cbv zeta in H; plan_cases H; subst o; first [contradiction F | subst file; first [left; reflexivity | right; reflexivity]].
Qed.

(** ** The whole generation *)

(** the renderer of one side ([pr]: the producer) for one target works in [base] *)
Definition part (cd pd : option fpath) (c : wconfig) (pr : bool) (t : target) (base : fpath) : Prop :=
  let l := if pr then cf_producer c else cf_consumer c in
  In t l /\ exists d, (if pr then pd else cd) = Some d /\ base = if 1 <? length l then d ++ [target_dir t] else d.

Definition under (d q : fpath) : Prop := exists r, q = d ++ r.
(** neither destination is inside the other *)
Definition separate (cd pd : option fpath) : Prop :=
  forall a b q, cd = Some a -> pd = Some b -> under a q -> under b q -> False.

Definition all_ops (cd pd : option fpath) (s : wstore) (p : store) (c : wconfig) : list (fpath * op) :=
  side_ops cd (consumer_plan s p) (cf_consumer c) ++ side_ops pd (producer_plan s p) (cf_producer c).

Lemma in_side : forall d pl l base o, In (base, o) (side_ops d pl l) <->
  exists t x, In t l /\ d = Some x /\ base = (if 1 <? length l then x ++ [target_dir t] else x) /\ In o (pl t).
Proof.
  intros d pl l base o. unfold side_ops. destruct d as [x|].
  - unfold targets_ops. rewrite in_flat_map. split.
    + intros (t & T & H). apply in_map_iff in H as (o' & E & O). injection E as <- <-. exists t, x. repeat split; assumption.
    + intros (t & x' & T & E & B & O). injection E as <-. exists t. split; [exact T|]. apply in_map_iff. exists o.
      split; [subst base; reflexivity | exact O].
  - split; [intros [] | intros (t & x & _ & E & _); discriminate].
Qed.

Lemma in_all_ops : forall cd pd s p c base o, In (base, o) (all_ops cd pd s p c) <->
  exists pr t, part cd pd c pr t base /\ In o (plan pr s p t).
Proof.
  intros cd pd s p c base o. unfold all_ops. rewrite in_app_iff, !in_side. split.
  - intros [(t & x & T & E & B & O)|(t & x & T & E & B & O)].
    + exists false, t. split; [|exact O]. split; [exact T|]. exists x. split; [exact E | exact B].
    + exists true, t. split; [|exact O]. split; [exact T|]. exists x. split; [exact E | exact B].
  - intros ([|] & t & (T & x & E & B) & O); [right | left]; exists t, x; repeat split; assumption.
Qed.

Lemma classic_dest : forall (d : option fpath) (l : list target), (d = None -> l = []) \/ (d = None /\ l <> []).
Proof.
  intros [d|] l; [left; discriminate|]. destruct l; [left; reflexivity | right; split; [reflexivity | discriminate]].
Qed.

Lemma render_ops : forall cd pd s p f f' r, render cd pd s p f = (f', r) ->
  (f' = f /\ exists e, r = Err e) \/ exists c, w_config s = Some c /\ run_seq (all_ops cd pd s p c) f = (f', r).
Proof.
  intros cd pd s p f f' r H. destruct (w_config s) as [c|] eqn:C.
  - destruct (classic_dest cd (cf_consumer c)) as [A|A].
    + destruct (classic_dest pd (cf_producer c)) as [B|B].
      * right. exists c. split; [reflexivity|]. rewrite (render_as_seq cd pd s p f c C A B) in H. exact H.
      * destruct (render_refused cd pd s p f) as (e & E); [right; exists c; split; [exact C | right; exact B]|].
        rewrite E in H. injection H as <- <-. left. split; [reflexivity | exists e; reflexivity].
    + destruct (render_refused cd pd s p f) as (e & E); [right; exists c; split; [exact C | left; exact A]|].
      rewrite E in H. injection H as <- <-. left. split; [reflexivity | exists e; reflexivity].
  - destruct (render_refused cd pd s p f) as (e & E); [left; exact C|].
    rewrite E in H. injection H as <- <-. left. split; [reflexivity | exists e; reflexivity].
Qed.

Lemma all_wf : forall cd pd s p c, Forall wf_op (all_ops cd pd s p c).
Proof.
  intros cd pd s p c. apply Forall_forall. intros [base o] H. apply in_all_ops in H as (pr & t & _ & O).
  pose proof (plan_wf pr t s p base) as W. rewrite Forall_forall in W. apply W. apply in_map_iff. exists o. split; [reflexivity | exact O].
Qed.

Lemma one_target : forall (l : list target) a b, In a l -> In b l -> (1 <? length l) = false -> a = b.
Proof.
  intros [|x [|y l]] a b A B L; [contradiction | | discriminate L].
  destruct A as [<-|[]]. destruct B as [<-|[]]. reflexivity.
Qed.

Lemma app_comparable : forall (A : Type) (a b x y : list A), a ++ x = b ++ y -> length a = length b -> a = b /\ x = y.
Proof.
  intros A a. induction a as [|u a IH]; intros [|v b] x y E L; try discriminate L; [split; [reflexivity | exact E]|].
  cbn [app] in E. injection E as -> E. injection L as L. destruct (IH b x y E L) as [-> ->]. split; reflexivity.
Qed.

Lemma parts_apart : forall cd pd c pr t base pr' t' base' x y, separate cd pd ->
  part cd pd c pr t base -> part cd pd c pr' t' base' -> base ++ x = base' ++ y -> pr = pr' /\ t = t' /\ base = base'.
Proof.
  intros cd pd c pr t base pr' t' base' x y S (T & d & D & B) (T' & d' & D' & B') E.
  assert (forall (l : list target) (u : target) (e : fpath), exists z, (if 1 <? length l then e ++ [target_dir u] else e) = e ++ z) as P.
  { intros l u e. destruct (1 <? @length target l); [eexists; reflexivity | exists []; rewrite app_nil_r; reflexivity]. }
  assert (pr = pr') as <-.
  { destruct (P (if pr then cf_producer c else cf_consumer c) t d) as (z & Z). assert (base = d ++ z) as BZ by (rewrite B; exact Z).
    destruct (P (if pr' then cf_producer c else cf_consumer c) t' d') as (z' & Z'). assert (base' = d' ++ z') as BZ' by (rewrite B'; exact Z').
    destruct pr, pr'; try reflexivity; exfalso.
    - apply (S d' d (base ++ x) D' D); [exists (z' ++ y); rewrite E, BZ', <- app_assoc; reflexivity |
        exists (z ++ x); rewrite BZ, <- app_assoc; reflexivity].
    - apply (S d d' (base ++ x) D D'); [exists (z ++ x); rewrite BZ, <- app_assoc; reflexivity |
        exists (z' ++ y); rewrite E, BZ', <- app_assoc; reflexivity]. }
  split; [reflexivity|]. rewrite D in D'. injection D' as <-.
  destruct (1 <? length (if pr then cf_producer c else cf_consumer c)) eqn:L.
  - rewrite B, B', <- !app_assoc in E. apply app_inv_head in E. cbn [app] in E. injection E as E _.
    destruct t, t'; try discriminate E; (split; [reflexivity | congruence]).
  - split; [|congruence]. exact (one_target _ _ _ T T' L).
Qed.

Lemma target_dec : forall a b : target, {a = b} + {a <> b}.
Proof. decide equality. Defined.

Lemma targets_split : forall dest many (pl : target -> list op) l t, In t l -> exists a b,
  targets_ops dest many pl l = a ++ map (@pair fpath op (if many then dest ++ [target_dir t] else dest)) (pl t) ++ b /\
  (length l <= 1 -> b = []) /\
  forall x, In x b -> exists t', t' <> t /\ In t' l /\ fst x = (if many then dest ++ [target_dir t'] else dest).
Proof.
  intros dest many pl l t. induction l as [|u l IH]; intro T; [contradiction|].
  assert (DEC : In t l \/ ~ In t l).
  { destruct (in_dec target_dec t l) as [I|I]; [left | right]; exact I. }
  destruct DEC as [I|I].
  - destruct (IH I) as (a & b & E & L & B). exists (map (@pair fpath op (if many then dest ++ [target_dir u] else dest)) (pl u) ++ a), b.
    split; [|split].
    + unfold targets_ops in E |- *. cbn [flat_map]. rewrite E, <- app_assoc. reflexivity.
    + intro K. cbn [length] in K. apply L. lia.
    + intros x X. destruct (B x X) as (t' & N & J & F). exists t'. split; [exact N|]. split; [right; exact J | exact F].
  - destruct T as [->|T]; [|contradiction]. exists [], (targets_ops dest many pl l). split; [reflexivity|]. split.
    + intro K. destruct l; [reflexivity | cbn [length] in K; lia].
    + intros [b o] X. unfold targets_ops in X. apply in_flat_map in X as (t' & T' & X).
      apply in_map_iff in X as (o' & X & _). injection X as <- _. exists t'. split; [intros ->; contradiction|].
      split; [right; exact T' | reflexivity].
Qed.

(** the files of one part are those its renderer produced *)
Lemma render_part : forall cd pd s p f f' u c pr t base, render cd pd s p f = (f', Ok u) -> separate cd pd ->
  w_config s = Some c -> part cd pd c pr t base ->
  exists f0 f1, run base (plan pr s p t) f0 = (f1, Ok tt) /\ forall r, r <> [] -> f' (base ++ r) = f1 (base ++ r).
Proof.
  intros cd pd s p f f' u c pr t base H S C P. destruct (render_ops _ _ _ _ _ _ _ H) as [(_ & e & K)|(c' & C' & R)]; [discriminate|].
  assert (c' = c) as -> by congruence. clear H C'.
  assert (exists a b, all_ops cd pd s p c = a ++ map (@pair fpath op base) (plan pr s p t) ++ b /\
          forall x, In x b -> exists pr' t', part cd pd c pr' t' (fst x) /\ (pr' <> pr \/ t' <> t)) as (a & b & E & B).
  { unfold all_ops, plan. destruct P as (T & d & D & BB). destruct pr.
    - destruct (targets_split d (1 <? length (cf_producer c)) (producer_plan s p) (cf_producer c) t T) as (a & b & E & L & B).
      exists (side_ops cd (consumer_plan s p) (cf_consumer c) ++ a), b. split.
      + rewrite D. cbn [side_ops]. rewrite E, <- BB, app_assoc. reflexivity.
      + intros x X. destruct (B x X) as (t' & N & J & F). exists true, t'. split; [|right; exact N]. split; [exact J|].
        exists d. split; [exact D | exact F].
    - destruct (targets_split d (1 <? length (cf_consumer c)) (consumer_plan s p) (cf_consumer c) t T) as (a & b & E & L & B).
      exists a, (b ++ side_ops pd (producer_plan s p) (cf_producer c)). split.
      + rewrite D. cbn [side_ops]. rewrite E, <- BB, <- !app_assoc. reflexivity.
      + intros [b0 o] X. apply in_app_iff in X as [X|X].
        * destruct (B _ X) as (t' & N & J & F). exists false, t'. split; [|right; exact N]. split; [exact J|].
          exists d. split; [exact D | exact F].
        * apply in_side in X as (t' & x & J & E' & F & _). exists true, t'. split; [|left; discriminate]. split; [exact J|].
          exists x. split; [exact E' | exact F]. }
  rewrite E, run_seq_app in R. destruct (run_seq a f) as [f0 [u0|e|]]; [|discriminate|discriminate].
  rewrite run_seq_app in R. destruct (run_seq (map (pair base) (plan pr s p t)) f0) as [f1 [[]|e|]] eqn:R1; [|discriminate|discriminate].
  exists f0, f1. split; [rewrite run_as_seq; exact R1|]. intros r N. eapply seq_other; [exact R|].
  intros [b0 o] X. destruct (B _ X) as (pr' & t' & P' & DIFF). cbn [fst] in P'. split.
  - rewrite written_rel. destruct (rel_written o) as [q|]; [|discriminate]. cbn [option_map]. intro K. injection K as K.
    destruct (parts_apart _ _ _ _ _ _ _ _ _ _ _ S P P' (eq_sym K)) as (-> & -> & _). destruct DIFF as [F|F]; apply F; reflexivity.
  - destruct o as [|file deps]; [intros []|]. cbn [merges fst snd]. intros (k & K).
    destruct (split_last r) as [->|(r0 & t0 & ->)]; [contradiction|]. rewrite app_assoc in K. apply app_inj_tail in K as [K _].
    assert (base ++ (r0 ++ skipn k b0) = b0 ++ []) as K2 by (rewrite app_assoc, K, firstn_skipn, app_nil_r; reflexivity).
    destruct (parts_apart _ _ _ _ _ _ _ _ _ _ _ S P P' K2) as (-> & -> & _). destruct DIFF as [F|F]; apply F; reflexivity.
Qed.

(** ** What the Rust renderers leave behind *)

Lemma run_in : forall base pr t s p a l q body f f' u, plan pr s p t = a ++ l ->
  run base (plan pr s p t) f = (f', Ok u) -> In (Put false (Ok q) body) l ->
  (forall o, In o l -> rel_forced o = Some q -> o = Put false (Ok q) body) ->
  exists d, body = Ok d /\ f' (base ++ q) = Some d.
Proof.
  intros base pr t s p a l q body f f' u E R I U. rewrite run_as_seq in R.
  pose proof (plan_wf pr t s p base) as W. rewrite E, map_app in R, W.
  eapply seq_in; [exact R | apply in_map_iff; eexists; split; [reflexivity | exact I] | |].
  - intros x X F. apply in_map_iff in X as (o & <- & O). rewrite forced_rel in F.
    destruct (rel_forced o) as [q'|] eqn:K; [|discriminate]. cbn [option_map] in F. injection F as F.
    apply app_inv_head in F. subst q'. rewrite (U o O K). reflexivity.
  - intros x X M. rewrite Forall_forall in W.
    assert (W1 : wf_op x) by (apply W, in_app_iff; right; exact X).
    assert (W2 : wf_op (base, Put false (Ok q) body))
      by (apply W, in_app_iff; right; apply in_map_iff; eexists; split; [reflexivity | exact I]).
    destruct x as [b [keep dest bd|file deps]]; [exact M|]. cbn [merges fst snd wf_op] in M, W1, W2.
    destruct M as (k & K). destruct W2 as (r & t0 & -> & N). rewrite app_assoc in K. apply app_inj_tail in K as [_ ->]. contradiction.
Qed.

Lemma run_exists : forall base pr t s p o q f f' u, run base (plan pr s p t) f = (f', Ok u) ->
  In o (plan pr s p t) -> rel_written o = Some q -> f' (base ++ q) <> None.
Proof.
  intros base pr t s p o q f f' u R I W. rewrite run_as_seq in R.
  eapply seq_exists; [exact R | apply in_map_iff; exists o; split; [reflexivity | exact I] |].
  rewrite written_rel, W. reflexivity.
Qed.

Definition d_mod : fpath := [txt "mod.rs"].
Definition impl : text := txt "implementation".

Ltac in_plan :=
  first [ left; reflexivity
        | apply in_app_iff; first [left; solve [in_plan] | right; solve [in_plan]]
        | right; solve [in_plan] ].
Ltac only_one :=
  let o := fresh "o" in let O := fresh "O" in let F := fresh "F" in intros o O F; plan_all O F; reflexivity.
Ltac fin Q q body d E :=
  let T := fresh "T" in
  destruct (Q q body) as (d & E & T);
  [unfold ops_static, ops_consumer_static; in_plan | only_one | ].

Lemma producer_final : forall base s p f f' u, run base (producer_rust s p) f = (f', Ok u) ->
  exists rm em main, request_modules (w_requests s) = Ok rm /\ event_modules (w_events s) = Ok em /\ main_doc s = Ok main /\
  f' (base ++ [txt "mod.rs"]) = Some (DMods "mod" (map txt ["context"; "implementation"]%string)) /\
  f' (base ++ [impl; txt "mod.rs"]) = Some main /\
  f' (base ++ [impl; txt "handlers"; txt "mod.rs"]) = Some (DMods "handlers" rm) /\
  f' (base ++ [txt "responses"; txt "mod.rs"]) = Some (DMods "responses" rm) /\
  f' (base ++ [impl; txt "emitters"; txt "mod.rs"]) = Some (DMods "emitters" (em ++ default_modules)) /\
  f' (base ++ [txt "events"; txt "mod.rs"]) = Some (DMods "events" (default_modules ++ em)) /\
  f' (base ++ [impl; txt "beacons"; txt "mod.rs"]) = Some (DMods "beacon emitters" (map (fun b => module_name (bc_ref b)) (w_beacons s))) /\
  f' (base ++ [txt "beacons"; txt "mod.rs"]) = Some (DMods "beacons" (map (fun b => module_name (bc_ref b)) (w_beacons s))) /\
  f' (base ++ [impl; txt "scope"; txt "mod.rs"]) = Some (DStatic "implementation/scope/mod.rs") /\
  f' (base ++ [impl; txt "protocol"; txt "mod.rs"]) = Some (DProtocol p) /\
  f' (base ++ [impl; txt "consumer"; txt "mod.rs"]) = Some (DMods "consumer" [txt "identification"]).
Proof.
  intros base s p f f' u H.
  set (R := flat_map (fun r => [op_response r; op_handler r]) (w_requests s)).
  set (M := [op_responses_mod (w_requests s); op_handlers_mod (w_requests s)]).
  set (E := flat_map (fun e => [op_event_impl e; op_event_emitter e]) (w_events s)).
  set (B := flat_map (fun b => [op_beacon_impl b; op_beacon_emitter b]) (w_beacons s)).
  set (L := [op_beacon_emitters_mod (w_beacons s); op_beacon_impl_mod (w_beacons s);
             op_event_impl_mod (w_events s); op_event_emitters_mod (w_events s)] ++ ops_static (w_events s) ++
            [op_protocol p; op_identification s p; op_producer_consumer s; op_main s; Merge (txt "Cargo.toml") producer_deps]).
  assert (P0 : plan true s p TRust = [] ++ (R ++ M ++ E ++ B ++ L)) by reflexivity.
  assert (P1 : plan true s p TRust = R ++ (M ++ E ++ B ++ L)) by reflexivity.
  assert (P2 : plan true s p TRust = (R ++ M ++ E ++ B) ++ L) by (rewrite <- !app_assoc; reflexivity).
  pose proof (fun q body => run_in base true TRust s p _ _ q body f f' u P0 H) as Q0.
  pose proof (fun q body => run_in base true TRust s p _ _ q body f f' u P1 H) as Q1.
  pose proof (fun q body => run_in base true TRust s p _ _ q body f f' u P2 H) as Q2.
  clear P0 P1 P2 H. subst R M E B L.
  fin Q0 [txt "mod.rs"] (Ok (DMods "mod" (map txt ["context"; "implementation"]%string)) : res doc rerr) d1 E1.
  fin Q0 [impl; txt "mod.rs"] (main_doc s) main E2.
  fin Q1 [impl; txt "handlers"; txt "mod.rs"] (do ms <- request_modules (w_requests s); Ok (DMods "handlers" ms) : res doc rerr) d3 E3.
  fin Q0 [txt "responses"; txt "mod.rs"] (do ms <- request_modules (w_requests s); Ok (DMods "responses" ms) : res doc rerr) d4 E4.
  fin Q2 [impl; txt "emitters"; txt "mod.rs"] (do ms <- event_modules (w_events s); Ok (DMods "emitters" (ms ++ default_modules)) : res doc rerr) d5 E5.
  fin Q0 [txt "events"; txt "mod.rs"] (do ms <- event_modules (w_events s); Ok (DMods "events" (default_modules ++ ms)) : res doc rerr) d6 E6.
  fin Q2 [impl; txt "beacons"; txt "mod.rs"] (Ok (DMods "beacon emitters" (map (fun b => module_name (bc_ref b)) (w_beacons s))) : res doc rerr) d7 E7.
  fin Q0 [txt "beacons"; txt "mod.rs"] (Ok (DMods "beacons" (map (fun b => module_name (bc_ref b)) (w_beacons s))) : res doc rerr) d8 E8.
  fin Q0 [impl; txt "scope"; txt "mod.rs"] (Ok (DStatic "implementation/scope/mod.rs") : res doc rerr) d9 E9.
  fin Q0 [impl; txt "protocol"; txt "mod.rs"] (Ok (DProtocol p) : res doc rerr) d10 E10.
  fin Q0 [impl; txt "consumer"; txt "mod.rs"] (do a <- get_assigned s; do k <- get_self s; Ok (DMods "consumer" [txt "identification"]) : res doc rerr) d11 E11.
  apply bind_ok in E3 as (rm & R & E3). apply bind_ok in E5 as (em & EM & E5). rewrite R in E4. rewrite EM in E6.
  apply bind_ok in E11 as (a1 & _ & E11). apply bind_ok in E11 as (a2 & _ & E11). cbn [bind] in E4, E6.
  exists rm, em, main. repeat split; congruence.
Qed.

Lemma consumer_final : forall base s p f f' u, run base (consumer_rust s p) f = (f', Ok u) ->
  f' (base ++ [txt "mod.rs"]) = Some (DMods "mod" (map txt ["broadcasts"; "context"; "events"; "implementation"]%string)) /\
  f' (base ++ [impl; txt "mod.rs"]) = Some (DMods "implementation" (map txt ["consumer"; "protocol"]%string)) /\
  f' (base ++ [txt "events"; txt "mod.rs"]) = Some (DMods "events" consumer_events) /\
  f' (base ++ [txt "broadcasts"; txt "mod.rs"]) = Some (DMods "broadcasts" (map (fun b => module_name (bc_ref b)) (all_broadcasts s))) /\
  f' (base ++ [impl; txt "consumer"; txt "mod.rs"]) =
    Some (DClient (map (fun b => (split_dots (bc_ref b), plain_name (bc_ref b), module_name (bc_ref b))) (all_broadcasts s))) /\
  f' (base ++ [impl; txt "protocol"; txt "mod.rs"]) = Some (DProtocol p) /\
  (exists rq, map_res request_arms (w_requests s) = Ok rq /\
   f' (base ++ [impl; txt "consumer"; txt "controller.rs"]) =
     Some (DController rq (map (fun b => (txt "beacon_" ++ module_name (bc_ref b), rust_path (bc_ref b))) (w_beacons s)))).
Proof.
  intros base s p f f' u H.
  pose proof (fun q body => run_in base false TRust s p [] _ q body f f' u eq_refl H) as Q.
  cbn [plan consumer_plan] in Q. unfold consumer_rust in Q. cbv zeta in Q. clear H.
  fin Q [txt "mod.rs"] (Ok (DMods "mod" (map txt ["broadcasts"; "context"; "events"; "implementation"]%string)) : res doc rerr) d1 E1.
  fin Q [impl; txt "mod.rs"] (Ok (DMods "implementation" (map txt ["consumer"; "protocol"]%string)) : res doc rerr) d2 E2.
  fin Q [txt "events"; txt "mod.rs"] (Ok (DMods "events" consumer_events) : res doc rerr) d3 E3.
  fin Q [txt "broadcasts"; txt "mod.rs"] (Ok (DMods "broadcasts" (map (fun b => module_name (bc_ref b)) (all_broadcasts s))) : res doc rerr) d4 E4.
  fin Q [impl; txt "consumer"; txt "mod.rs"]
    (Ok (DClient (map (fun b => (split_dots (bc_ref b), plain_name (bc_ref b), module_name (bc_ref b))) (all_broadcasts s))) : res doc rerr) d5 E5.
  fin Q [impl; txt "protocol"; txt "mod.rs"] (Ok (DProtocol p) : res doc rerr) d6 E6.
  fin Q [impl; txt "consumer"; txt "controller.rs"]
    (do rq <- map_res request_arms (w_requests s);
       Ok (DController rq (map (fun b => (txt "beacon_" ++ module_name (bc_ref b), rust_path (bc_ref b))) (w_beacons s))) : res doc rerr) d7 E7.
  apply bind_ok in E7 as (rq & R & E7).
  repeat (split; [congruence|]). exists rq. split; [exact R | congruence].
Qed.

Lemma map_res_in : forall (A B : Type) (g : A -> res B rerr) l bs b, map_res g l = Ok bs -> In b bs ->
  exists a, In a l /\ g a = Ok b.
Proof.
  intros A B g l. induction l as [|a l IH]; intros bs b H I; cbn [map_res] in H.
  - injection H as <-. contradiction.
  - apply bind_ok in H as (x & X & H). apply bind_ok in H as (xs & XS & H). injection H as <-.
    destruct I as [<-|I]; [exists a; split; [left; reflexivity | exact X]|].
    destruct (IH xs b XS I) as (a' & A1 & A2). exists a'. split; [right; exact A1 | exact A2].
Qed.
Lemma map_res_in' : forall (A B : Type) (g : A -> res B rerr) l bs a, map_res g l = Ok bs -> In a l ->
  exists b, In b bs /\ g a = Ok b.
Proof.
  intros A B g l. induction l as [|x l IH]; intros bs a H I; cbn [map_res] in H; [contradiction|].
  apply bind_ok in H as (y & Y & H). apply bind_ok in H as (ys & YS & H). injection H as <-.
  destruct I as [<-|I]; [exists y; split; [left; reflexivity | exact Y]|].
  destruct (IH ys a YS I) as (b & B1 & B2). exists b. split; [right; exact B1 | exact B2].
Qed.
Lemma map_res_ok : forall (A B : Type) (g : A -> res B rerr) l, (forall a, In a l -> exists b, g a = Ok b) ->
  exists bs, map_res g l = Ok bs.
Proof.
  intros A B g l. induction l as [|a l IH]; intro H; cbn [map_res]; [eexists; reflexivity|].
  destruct (H a (or_introl eq_refl)) as (b & ->). destruct IH as (bs & ->); [intros x X; apply H; right; exact X|].
  eexists. reflexivity.
Qed.
Lemma map_res_map : forall (A B : Type) (g : A -> res B rerr) l bs, map_res g l = Ok bs -> map g l = map Ok bs.
Proof.
  intros A B g l. induction l as [|a l IH]; intros bs H; cbn [map_res] in H.
  - injection H as <-. reflexivity.
  - apply bind_ok in H as (x & X & H). apply bind_ok in H as (xs & XS & H). injection H as <-. cbn [map].
    rewrite X, (IH xs XS). reflexivity.
Qed.

Lemma in_request_op : forall s p r o, In r (w_requests s) -> In o [op_response r; op_handler r] -> In o (producer_rust s p).
Proof. intros s p r o R O. unfold producer_rust. apply in_app_iff. left. apply in_flat_map. exists r. split; assumption. Qed.
Lemma in_event_op : forall s p e o, In e (w_events s) -> In o [op_event_impl e; op_event_emitter e] -> In o (producer_rust s p).
Proof.
  intros s p r o R O. unfold producer_rust. apply in_app_iff. right. apply in_app_iff. right. apply in_app_iff. left.
  apply in_flat_map. exists r. split; assumption.
Qed.
Lemma in_beacon_op : forall s p b o, In b (w_beacons s) -> In o [op_beacon_impl b; op_beacon_emitter b] -> In o (producer_rust s p).
Proof.
  intros s p r o R O. unfold producer_rust. do 3 (apply in_app_iff; right). apply in_app_iff. left.
  apply in_flat_map. exists r. split; assumption.
Qed.
Lemma in_static_op : forall s p o, In o (ops_static (w_events s)) -> In o (producer_rust s p).
Proof. intros s p o O. unfold producer_rust. do 5 (apply in_app_iff; right). apply in_app_iff. left. exact O. Qed.
Lemma in_last_op : forall s p o, In o [op_protocol p; op_identification s p; op_producer_consumer s; op_main s;
   Merge (txt "Cargo.toml") producer_deps] -> In o (producer_rust s p).
Proof. intros s p o O. unfold producer_rust. do 6 (apply in_app_iff; right). exact O. Qed.

Lemma default_written : forall s p m, In m default_modules ->
  (exists o, In o (producer_rust s p) /\ rel_written o = Some [txt "events"; rs m]) /\
  (exists o, In o (producer_rust s p) /\ rel_written o = Some [impl; txt "emitters"; rs m]).
Proof.
  intros s p m M.
  assert (EV : forall name, has_event (w_events s) name = true -> exists e, In e (w_events s) /\ ev_ref e = Some (txt name)).
  { intros name K. unfold has_event in K. apply existsb_exists in K as (e & E & K). exists e. split; [exact E|].
    unfold oteqb in K. destruct (ev_ref e); [|discriminate]. apply teqb_iff in K. congruence. }
  cbn [default_modules map In] in M. destruct M as [<-|[<-|[<-|[<-|[<-|[]]]]]].
  - destruct (has_event (w_events s) "connected") eqn:K.
    + destruct (EV _ K) as (e & E & RF). split.
      * exists (op_event_impl e). split; [apply (in_event_op s p e _ E); left; reflexivity|].
        unfold op_event_impl, get_reference, need. rewrite RF. reflexivity.
      * exists (op_event_emitter e). split; [apply (in_event_op s p e _ E); right; left; reflexivity|].
        unfold op_event_emitter, get_reference, need. rewrite RF. reflexivity.
    + split; eexists; (split; [apply in_static_op; unfold ops_static; rewrite K; apply in_app_iff; left|]).
      * left. reflexivity.
      * reflexivity.
      * right. left. reflexivity.
      * reflexivity.
  - destruct (has_event (w_events s) "disconnected") eqn:K.
    + destruct (EV _ K) as (e & E & RF). split.
      * exists (op_event_impl e). split; [apply (in_event_op s p e _ E); left; reflexivity|].
        unfold op_event_impl, get_reference, need. rewrite RF. reflexivity.
      * exists (op_event_emitter e). split; [apply (in_event_op s p e _ E); right; left; reflexivity|].
        unfold op_event_emitter, get_reference, need. rewrite RF. reflexivity.
    + split; eexists; (split; [apply in_static_op; unfold ops_static; rewrite K; apply in_app_iff; right; apply in_app_iff; left|]).
      * left. reflexivity.
      * reflexivity.
      * right. left. reflexivity.
      * reflexivity.
  - split; eexists; (split; [apply in_static_op; unfold ops_static; do 2 (apply in_app_iff; right); apply in_app_iff; left|]).
    + do 0 right. left. reflexivity.
    + reflexivity.
    + do 3 right. left. reflexivity.
    + reflexivity.
  - split; eexists; (split; [apply in_static_op; unfold ops_static; do 2 (apply in_app_iff; right); apply in_app_iff; left|]).
    + do 1 right. left. reflexivity.
    + reflexivity.
    + do 4 right. left. reflexivity.
    + reflexivity.
  - split; eexists; (split; [apply in_static_op; unfold ops_static; do 2 (apply in_app_iff; right); apply in_app_iff; left|]).
    + do 2 right. left. reflexivity.
    + reflexivity.
    + do 5 right. left. reflexivity.
    + reflexivity.
Qed.

(** *** every declared module has its file *)

(** the folders with a [mod.rs] *)
Definition module_folders (pr : bool) : list fpath :=
  if pr then [[]; [impl]; [impl; txt "handlers"]; [impl; txt "emitters"]; [impl; txt "beacons"]; [impl; txt "consumer"];
              [impl; txt "protocol"]; [impl; txt "scope"]; [txt "events"]; [txt "responses"]; [txt "beacons"]]
  else [[]; [impl]; [impl; txt "consumer"]; [impl; txt "protocol"]; [txt "events"]; [txt "broadcasts"]].

(** where Rust looks for the module [m] declared in [dir/mod.rs] *)
Definition module_file (f : fs) (pr : bool) (base dir : fpath) (m : text * option fpath) : Prop :=
  match snd m with
  | Some q => exists dir', q = dir' ++ [txt "mod.rs"] /\ In dir' (module_folders pr) /\ f (base ++ q) <> None
  | None => f (base ++ dir ++ [rs (fst m)]) <> None \/
            (In (dir ++ [fst m]) (module_folders pr) /\ f (base ++ dir ++ [fst m; txt "mod.rs"]) <> None)
  end.

Lemma main_declares : forall s d, main_doc s = Ok d -> declares d = main_modules.
Proof.
  intros s d H. unfold main_doc in H. apply bind_ok in H as (a & _ & H). apply bind_ok in H as (b & _ & H).
  apply bind_ok in H as (k & _ & H). injection H as <-. reflexivity.
Qed.

Ltac no_none := match goal with |- ?g <> None => let K := fresh "K" in intro K; match goal with F : ?h = Some _ |- _ => change h with g in F; rewrite K in F; discriminate F end end.
Ltac folder_file := right; split; [cbn [module_folders app In]; repeat (first [left; reflexivity | right]) | no_none].

Lemma producer_modules : forall base s p f f' u, run base (producer_rust s p) f = (f', Ok u) ->
  forall dir, In dir (module_folders true) ->
  exists d, f' (base ++ dir ++ [txt "mod.rs"]) = Some d /\ forall m, In m (declares d) -> module_file f' true base dir m.
Proof.
  intros base s p f f' u H.
  pose proof (fun o q => run_exists base true TRust s p o q f f' u H) as EX. cbn [plan producer_plan] in EX.
  destruct (producer_final base s p f f' u H) as (rm & em & main & RM & EM & MD & F1 & F2 & F3 & F4 & F5 & F6 & F7 & F8 & F9 & F10 & F11).
  assert (RQ : forall m, In m rm -> f' (base ++ [impl; txt "handlers"; rs m]) <> None /\ f' (base ++ [txt "responses"; rs m]) <> None).
  { intros m M. destruct (map_res_in _ _ _ _ _ _ RM M) as (r & R & G). apply bind_ok in G as (q & Q & G). injection G as <-.
    split; [apply (EX (op_handler r)) | apply (EX (op_response r))];
      try (apply (in_request_op s p r _ R); cbn [In]; tauto).
    - unfold op_handler. rewrite Q. reflexivity.
    - unfold op_response. rewrite Q. reflexivity. }
  assert (EV : forall m, In m (default_modules ++ em) -> f' (base ++ [impl; txt "emitters"; rs m]) <> None /\ f' (base ++ [txt "events"; rs m]) <> None).
  { intros m M. apply in_app_iff in M as [M|M].
    - destruct (default_written s p m M) as ((o1 & O1 & W1) & (o2 & O2 & W2)). split; [exact (EX o2 _ O2 W2) | exact (EX o1 _ O1 W1)].
    - destruct (map_res_in _ _ _ _ _ _ EM M) as (e & E & G). apply bind_ok in G as (q & Q & G). injection G as <-.
      unfold own_events in E. apply filter_In in E as [E _].
      split; [apply (EX (op_event_emitter e)) | apply (EX (op_event_impl e))];
        try (apply (in_event_op s p e _ E); cbn [In]; tauto).
      + unfold op_event_emitter. rewrite Q. reflexivity.
      + unfold op_event_impl. rewrite Q. reflexivity. }
  assert (BC : forall m, In m (map (fun b => module_name (bc_ref b)) (w_beacons s)) ->
    f' (base ++ [impl; txt "beacons"; rs m]) <> None /\ f' (base ++ [txt "beacons"; rs m]) <> None).
  { intros m M. apply in_map_iff in M as (b & <- & B).
    split; [apply (EX (op_beacon_emitter b)) | apply (EX (op_beacon_impl b))];
      try (apply (in_beacon_op s p b _ B); cbn [In]; tauto); reflexivity. }
  assert (ID : f' (base ++ [impl; txt "consumer"; rs (txt "identification")]) <> None).
  { apply (EX (op_identification s p)); [apply in_last_op; right; left; reflexivity | reflexivity]. }
  assert (CX : f' (base ++ [rs (txt "context")]) <> None).
  { apply (EX (static true [] "context.rs")); [|reflexivity]. apply in_static_op. unfold ops_static.
    do 3 (apply in_app_iff; right). right. right. left. reflexivity. }
  intros dir D. cbn [module_folders In] in D.
  destruct D as [<-|[<-|[<-|[<-|[<-|[<-|[<-|[<-|[<-|[<-|[<-|[]]]]]]]]]]]]; cbn [app] in *.
  - eexists. split; [exact F1|]. cbn [declares map In]. intros m [<-|[<-|[]]]; cbn [module_file fst snd app].
    + left. exact CX.
    + folder_file.
  - eexists. split; [exact F2|]. rewrite (main_declares s main MD).
    intros m M. cbn [main_modules map app In] in M.
    repeat match type of M with _ \/ _ => destruct M as [<-|M] end; [..|contradiction]; unfold module_file; cbn [fst snd app].
    + folder_file.
    + folder_file.
    + folder_file.
    + folder_file.
    + folder_file.
    + exists [impl; txt "beacons"]. split; [reflexivity|]. split; [cbn [module_folders In]; tauto | no_none].
    + exists [txt "beacons"]. split; [reflexivity|]. split; [cbn [module_folders In]; tauto | no_none].
    + exists [txt "events"]. split; [reflexivity|]. split; [cbn [module_folders In]; tauto | no_none].
    + exists [txt "responses"]. split; [reflexivity|]. split; [cbn [module_folders In]; tauto | no_none].
  - eexists. split; [exact F3|]. cbn [declares]. intros m M. apply in_map_iff in M as (x & <- & X). left. apply RQ. exact X.
  - eexists. split; [exact F5|]. cbn [declares]. intros m M. apply in_map_iff in M as (x & <- & X). left. apply EV.
    apply in_app_iff in X. apply in_app_iff. tauto.
  - eexists. split; [exact F7|]. cbn [declares]. intros m M. apply in_map_iff in M as (x & <- & X). left. apply BC. exact X.
  - eexists. split; [exact F11|]. cbn [declares map In]. intros m [<-|[]]. left. exact ID.
  - eexists. split; [exact F10|]. intros m [].
  - eexists. split; [exact F9|]. intros m [].
  - eexists. split; [exact F6|]. cbn [declares]. intros m M. apply in_map_iff in M as (x & <- & X). left. apply EV. exact X.
  - eexists. split; [exact F4|]. cbn [declares]. intros m M. apply in_map_iff in M as (x & <- & X). left. apply RQ. exact X.
  - eexists. split; [exact F8|]. cbn [declares]. intros m M. apply in_map_iff in M as (x & <- & X). left. apply BC. exact X.
Qed.

Lemma consumer_modules : forall base s p f f' u, run base (consumer_rust s p) f = (f', Ok u) ->
  forall dir, In dir (module_folders false) ->
  exists d, f' (base ++ dir ++ [txt "mod.rs"]) = Some d /\ forall m, In m (declares d) -> module_file f' false base dir m.
Proof.
  intros base s p f f' u H.
  pose proof (fun o q => run_exists base false TRust s p o q f f' u H) as EX. cbn [plan consumer_plan] in EX.
  destruct (consumer_final base s p f f' u H) as (F1 & F2 & F3 & F4 & F5 & F6 & _).
  assert (BC : forall m, In m (map (fun b => module_name (bc_ref b)) (all_broadcasts s)) ->
    f' (base ++ [txt "broadcasts"; rs m]) <> None).
  { intros m M. apply in_map_iff in M as (b & <- & B). apply (EX (op_broadcast b)); [|reflexivity].
    unfold consumer_rust. apply in_app_iff. left. apply in_map. exact B. }
  assert (ST : forall o, In o ops_consumer_static -> In o (consumer_rust s p)).
  { intros o O. unfold consumer_rust. cbv zeta. apply in_app_iff. right. apply in_app_iff. right. apply in_app_iff. left. exact O. }
  assert (MI : forall o, In o [op_broadcast_mod (all_broadcasts s); op_controller s; op_client (all_broadcasts s); op_options s; op_protocol p] ->
    In o (consumer_rust s p)).
  { intros o O. unfold consumer_rust. cbv zeta. apply in_app_iff. right. apply in_app_iff. left. exact O. }
  assert (EV : forall m, In m consumer_events -> f' (base ++ [txt "events"; rs m]) <> None).
  { intros m M. cbn [consumer_events map In] in M.
    destruct M as [<-|[<-|[<-|[<-|[<-|[]]]]]].
    - apply (EX (static true ["events"%string] "connected.rs")); [apply ST; unfold ops_consumer_static; cbn [app In]; tauto | reflexivity].
    - apply (EX (static true ["events"%string] "disconnected.rs")); [apply ST; unfold ops_consumer_static; cbn [app In]; tauto | reflexivity].
    - apply (EX (static true ["events"%string] "error.rs")); [apply ST; unfold ops_consumer_static; cbn [app In]; tauto | reflexivity].
    - apply (EX (static true ["events"%string] "reconnect.rs")); [apply ST; unfold ops_consumer_static; cbn [app In]; tauto | reflexivity].
    - apply (EX (static true ["events"%string] "shutdown.rs")); [apply ST; unfold ops_consumer_static; cbn [app In]; tauto | reflexivity]. }
  assert (CX : f' (base ++ [rs (txt "context")]) <> None).
  { apply (EX (static true [] "context.rs")); [apply ST; unfold ops_consumer_static; cbn [app In]; tauto | reflexivity]. }
  intros dir D. cbn [module_folders In] in D. destruct D as [<-|[<-|[<-|[<-|[<-|[<-|[]]]]]]]; cbn [app] in *.
  - eexists. split; [exact F1|]. cbn [declares map In]. intros m [<-|[<-|[<-|[<-|[]]]]]; unfold module_file; cbn [fst snd app].
    + folder_file.
    + left. exact CX.
    + folder_file.
    + folder_file.
  - eexists. split; [exact F2|]. cbn [declares map In]. intros m [<-|[<-|[]]]; unfold module_file; cbn [fst snd app]; folder_file.
  - eexists. split; [exact F5|]. cbn [declares client_modules map In]. intros m [<-|[<-|[<-|[<-|[]]]]]; left; cbn [fst app].
    + apply (EX (static false ["implementation"; "consumer"]%string "api.rs")); [apply ST; unfold ops_consumer_static; cbn [app In]; tauto | reflexivity].
    + apply (EX (op_controller s)); [apply MI; cbn [In]; tauto | reflexivity].
    + apply (EX (static false ["implementation"; "consumer"]%string "error.rs")); [apply ST; unfold ops_consumer_static; cbn [app In]; tauto | reflexivity].
    + apply (EX (op_options s)); [apply MI; cbn [In]; tauto | reflexivity].
  - eexists. split; [exact F6|]. intros m [].
  - eexists. split; [exact F3|]. cbn [declares]. intros m M. apply in_map_iff in M as (x & <- & X). left. apply EV. exact X.
  - eexists. split; [exact F4|]. cbn [declares]. intros m M. apply in_map_iff in M as (x & <- & X). left. apply BC. exact X.
Qed.

(** ** When a generation succeeds *)

Definition op_able (f : fs) (bo : fpath * op) : Prop :=
  match snd bo with
  | Put _ dest body => (exists q, dest = Ok q) /\ exists d, body = Ok d
  | Merge file _ => exists m, manifest f file (fst bo) (length (fst bo)) = Some m /\ is_man (f m) = true
  end.

Lemma seq_succeeds : forall l f, Forall wf_op l -> (forall x, In x l -> op_able f x) ->
  exists f', run_seq l f = (f', Ok tt).
Proof.
  induction l as [|[base o] l IH]; intros f W A; cbn [run_seq]; [eexists; reflexivity|].
  inversion W as [|? ? W1 W2]; subst.
  assert (exists g, exec base o f = (g, Ok tt)) as (g & G).
  { pose proof (A _ (or_introl eq_refl)) as X. destruct o as [keep dest body|file deps]; cbn [op_able snd fst exec] in *.
    - destruct X as ((q & ->) & d & ->). destruct (keep && is_some (f (base ++ q))); eexists; reflexivity.
    - destruct X as (m & M & K). rewrite M. destruct (f m) as [[]|]; try discriminate K. eexists. reflexivity. }
  rewrite G. apply IH; [exact W2|]. intros x X. pose proof (A x (or_intror X)) as Y.
  destruct x as [b o']. rewrite Forall_forall in W2. pose proof (W2 _ X) as WX. destruct o' as [keep dest body|file deps]; [exact Y|].
  cbn [op_able fst snd wf_op] in *. destruct Y as (m & M & K).
  exists m. split.
  - rewrite <- M. symmetry. apply same_manifest; [|exact WX]. eapply exec_manifests; [exact W1 | exact G].
  - apply manifest_at in M as [(j & ->) _]. rewrite <- K. symmetry. apply (exec_kinds _ _ _ _ _ W1 G). exact WX.
Qed.

Lemma manifest_found : forall f file base n k, k < n -> n <= length base ->
  f (firstn (S k) base ++ [file]) <> None -> (forall j, k < j < n -> f (firstn (S j) base ++ [file]) = None) ->
  manifest f file base n = Some (firstn (S k) base ++ [file]).
Proof.
  intros f file base n k. induction n as [|n IH]; intros K N F A; [lia|]. cbn [manifest].
  destruct (Nat.eq_dec k n) as [->|D].
  - remember (firstn (S n) base ++ [file]) as m. destruct (f m); [reflexivity | contradiction].
  - rewrite (A n) by lia. cbn [is_some]. apply IH; [lia | lia | exact F|]. intros j J. apply A. lia.
Qed.

Inductive struct_path (p : store) : nat -> list text -> Prop :=
| SP_here : forall x, In x (structs p) -> struct_path p (s_parent x) [s_name x]
| SP_in : forall g q, In g (groups p) -> struct_path p (g_id g) q -> struct_path p (g_parent g) (g_name g :: q).

Lemma struct_at_path : forall p a q,
  (forall g g', In g (groups p) -> In g' (groups p) -> g_name g = g_name g' -> g_parent g = g_parent g' -> g_id g = g_id g') ->
  struct_path p a q -> exists x, struct_at p a q = Some x.
Proof.
  intros p a q U H. induction H as [x X|g q G H (y & IH)].
  - cbn [struct_at]. destruct (find _ (structs p)) as [y|] eqn:F; [eexists; reflexivity|].
    pose proof (find_none _ _ F x X) as N. cbn beta in N. rewrite (proj2 (teqb_iff _ _) eq_refl), Nat.eqb_refl in N. discriminate.
  - cbn [struct_at]. destruct q as [|t q]; [inversion H|].
    destruct (find _ (groups p)) as [g'|] eqn:F.
    + apply find_some in F as [F1 F2]. apply andb_true_iff in F2 as [F2 F3]. apply teqb_iff in F2. apply Nat.eqb_eq in F3.
      rewrite (U g' g F1 G F2 F3). exists y. exact IH.
    + pose proof (find_none _ _ F g G) as N. cbn beta in N. rewrite (proj2 (teqb_iff _ _) eq_refl), Nat.eqb_refl in N. discriminate.
Qed.

(** what the renderers need to know about a workflow *)
Record complete (s : wstore) (p : store) : Prop := mkComplete {
  CP_req : forall r, In r (w_requests s) -> exists q e a, rq_ref r = Some q /\ rq_err r = Some e /\
    hd_error (rq_actions r) = Some a /\
    forall a, In a (rq_actions r) -> (exists x, ac_resp a = Some x) /\ (1 < length (rq_actions r) -> exists c, ac_concl a = Some c);
  CP_ev : forall e, In e (w_events s) -> exists q, ev_ref e = Some q;
  CP_key : exists c k a x y, w_config s = Some c /\ cf_self c = Some k /\ cf_assigned c = Some a /\
    struct_at p 0 (split_dots k) = Some x /\ struct_at p 0 (split_dots a) = Some y
}.

Ltac ok_easy := first [ split; eexists; reflexivity | exact I ].

Lemma plan_able : forall pr t s p o, complete s p -> In o (plan pr s p t) ->
  match o with Put _ dest body => (exists q, dest = Ok q) /\ exists d, body = Ok d | Merge _ _ => True end.
Proof.
  intros pr t s p o [RQ EV KEY] H.
  destruct KEY as (c & k & a & x & y & C & K & A & X & Y).
  assert (SELF : get_self s = Ok k) by (unfold get_self, get_config, need; rewrite C; cbn [bind]; rewrite K; reflexivity).
  assert (ASG : get_assigned s = Ok a) by (unfold get_assigned, get_config, need; rewrite C; cbn [bind]; rewrite A; reflexivity).
  assert (FK : key_fields p k = Ok (map (fun y => (f_name y, f_opt y)) (s_fields x))) by (unfold key_fields; rewrite X; reflexivity).
  assert (FA : key_fields p a = Ok (map (fun y => (f_name y, f_opt y)) (s_fields y))) by (unfold key_fields; rewrite Y; reflexivity).
  assert (R1 : forall r, In r (w_requests s) -> exists q, get_request r = Ok q).
  { intros r R. destruct (RQ r R) as (q & _ & _ & E & _). exists q. unfold get_request. rewrite E. reflexivity. }
  assert (R2 : forall r, In r (w_requests s) -> exists q, get_err r = Ok q).
  { intros r R. destruct (RQ r R) as (_ & q & _ & _ & E & _). exists q. unfold get_err. rewrite E. reflexivity. }
  assert (R3 : forall r, In r (w_requests s) -> exists q, get_response r = Ok q).
  { intros r R. destruct (RQ r R) as (_ & _ & ac & _ & _ & E & Z). unfold get_response. destruct (rq_actions r) as [|a0 l]; [discriminate|].
    destruct (Z a0 (or_introl eq_refl)) as ((z & Z1) & _). exists z. rewrite Z1. reflexivity. }
  assert (R4 : forall r ac, In r (w_requests s) -> In ac (rq_actions r) -> exists q, get_action_response ac = Ok q).
  { intros r ac R RA. destruct (RQ r R) as (_ & _ & _ & _ & _ & _ & Z). destruct (Z ac RA) as ((z & Z1) & _). exists z.
    unfold get_action_response. rewrite Z1. reflexivity. }
  assert (R5 : forall r ac, In r (w_requests s) -> several r = true -> In ac (rq_actions r) -> exists q, get_conclusion ac = Ok q).
  { intros r ac R S RA. destruct (RQ r R) as (_ & _ & _ & _ & _ & _ & Z). destruct (Z ac RA) as (_ & Z1).
    unfold several in S. apply Nat.ltb_lt in S. destruct (Z1 S) as (z & Z2). exists z. unfold get_conclusion. rewrite Z2. reflexivity. }
  assert (E1 : forall e, In e (w_events s) -> exists q, get_reference e = Ok q).
  { intros e E. destruct (EV e E) as (q & Q). exists q. unfold get_reference. rewrite Q. reflexivity. }
  assert (RM : exists ms, request_modules (w_requests s) = Ok ms).
  { apply map_res_ok. intros r R. destruct (R1 r R) as (q & ->). eexists. reflexivity. }
  assert (OWN : forall e, In e (own_events (w_events s)) -> In e (w_events s)) by (intros e E; apply filter_In in E; tauto).
  assert (EM : exists ms, event_modules (w_events s) = Ok ms).
  { apply map_res_ok. intros e E. destruct (E1 e (OWN e E)) as (q & ->). eexists. reflexivity. }
  destruct RM as (rm & RM). destruct EM as (em & EM).
  assert (AR : forall r, In r (w_requests s) -> exists z, request_arms r = Ok z).
  { intros r R. unfold request_arms. destruct (R1 r R) as (q & ->). cbn [bind].
    match goal with |- exists z, bind (map_res ?g ?l) _ = _ => destruct (map_res_ok _ _ g l) as (bs & ->) end.
    - intros ac RA. destruct (R4 r ac R RA) as (z & ->). cbn [bind]. eexists. reflexivity.
    - cbn [bind]. destruct (R2 r R) as (e & ->). eexists. reflexivity. }
  assert (CT : exists rq, map_res request_arms (w_requests s) = Ok rq) by (apply map_res_ok; exact AR).
  destruct CT as (arms & CT).
  destruct pr, t; cbn [plan producer_plan consumer_plan] in H;
    unfold producer_rust, consumer_rust, producer_ts, consumer_ts, ops_static, ops_ts_static, ops_consumer_static in H;
    cbv zeta in H; plan_cases H; subst o; try ok_easy.
  all: unfold op_response, op_handler, op_responses_mod, op_handlers_mod, op_event_impl, op_event_emitter,
    op_event_impl_mod, op_event_emitters_mod, op_identification, op_producer_consumer, op_main, op_controller, op_options,
    op_ts_response, op_ts_handler, op_ts_handlers_mod, op_ts_event_impl, op_ts_event_emitter, op_ts_event_emitters_mod,
    op_ts_identification, op_ts_main, op_ts_request, op_ts_consumer, response_doc, handler_doc, main_doc.
  all: rewrite ?SELF, ?ASG; cbn [bind]; rewrite ?FK, ?FA, ?RM, ?EM, ?CT; cbn [bind].
  all: repeat match goal with
    | R : In ?r (w_requests _) |- context [get_request ?r] => let z := fresh "z" in let Z := fresh "Z" in
        destruct (R1 r R) as (z & Z); rewrite !Z; cbn [bind]
    | R : In ?r (w_requests _) |- context [get_err ?r] => let z := fresh "z" in let Z := fresh "Z" in
        destruct (R2 r R) as (z & Z); rewrite !Z; cbn [bind]
    | R : In ?r (w_requests _) |- context [get_response ?r] => let z := fresh "z" in let Z := fresh "Z" in
        destruct (R3 r R) as (z & Z); rewrite !Z; cbn [bind]
    | R : In ?r (w_events _) |- context [get_reference ?r] => let z := fresh "z" in let Z := fresh "Z" in
        destruct (E1 r R) as (z & Z); rewrite !Z; cbn [bind]
    | |- context [several ?r] => let S := fresh "S" in destruct (several r) eqn:S
    | |- context [map_res ?g ?l] => let bs := fresh "bs" in let M := fresh "M" in
        destruct (map_res_ok _ _ g l) as (bs & M);
        [ let b := fresh "b" in let B := fresh "B" in intros b B
        | rewrite M; cbn [bind] ]
    | O : In ?e (own_events (w_events _)) |- _ => apply OWN in O
    | R : In ?r (w_requests _), RA : In ?ac (rq_actions ?r) |- context [get_action_response ?ac] =>
        let z := fresh "z" in let Z := fresh "Z" in destruct (R4 r ac R RA) as (z & Z); rewrite !Z; cbn [bind]
    | R : In ?r (w_requests _), S : several ?r = true, RA : In ?ac (rq_actions ?r) |- context [get_conclusion ?ac] =>
        let z := fresh "z" in let Z := fresh "Z" in destruct (R5 r ac R S RA) as (z & Z); rewrite !Z; cbn [bind]
    | |- context [match ac_bcs ?b with [] => _ | _ :: _ => _ end] => destruct (ac_bcs b); cbn [bind]
    end; try (split; eexists; reflexivity); try (eexists; reflexivity).
Qed.
