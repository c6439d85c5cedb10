(** The server knows how to merge both keys (C73). *)
From Coq Require Import String Ascii NArith List Arith Lia Bool.
From Verif Require Import Bytes ProtoModel WfModel ProtoProofs ProtoInv WfProofs PropProto PropWf.
From Verif Require Import RenderModel RenderProofs PropRender.
Import ListNotations.
Close Scope string_scope.
Open Scope list_scope.
Open Scope nat_scope.

Definition identification_file (t : target) : fpath :=
  [impl; txt "consumer"; match t with TRust => txt "identification.rs" | TTypeScript => txt "identification.ts" end].
(** the type of a reference and the merge of a field, in each language *)
Definition key_type (t : target) (r : text) : text := match t with TRust => rust_path r | TTypeScript => r end.
Definition merged_fields (t : target) (x : pstruct) : list (text * bool) :=
  map (fun y => (f_name y, match t with TRust => f_opt y | TTypeScript => true end)) (s_fields x).

Lemma struct_at_names : forall p q parent x, struct_at p parent q = Some x ->
  In x (structs p) /\ names_from p parent q (s_id x).
Proof.
  intros p q. induction q as [|t q IH]; intros parent x H; [discriminate H|].
  cbn [struct_at] in H. destruct q as [|t2 q].
  - apply find_some in H as (I & E). apply andb_true_iff in E as (E1 & E2). apply teqb_eq in E1. apply Nat.eqb_eq in E2.
    subst t parent. split; [exact I | apply NF_struct; exact I].
  - destruct (find _ (groups p)) as [g|] eqn:G; [|discriminate H].
    apply find_some in G as (I & E). apply andb_true_iff in E as (E1 & E2). apply teqb_eq in E1. apply Nat.eqb_eq in E2.
    destruct (IH _ _ H) as (X & N). split; [exact X|]. eapply NF_group; [|exact N].
    unfold has_group. subst t parent. apply (in_map gkey _ g). unfold all_groups. apply in_or_app. left. exact I.
Qed.

Lemma key_fields_names : forall p r l, key_fields p r = Ok l ->
  exists x, In x (structs p) /\ denotes p r (s_id x) /\ l = map (fun y => (f_name y, f_opt y)) (s_fields x).
Proof.
  intros p r l H. unfold key_fields in H. destruct (struct_at p 0 (split_dots r)) as [x|] eqn:X; [|discriminate H].
  destruct (struct_at_names _ _ _ _ X) as (I & N). exists x. split; [exact I|]. split; [exact N|]. inversion H. reflexivity.
Qed.

Theorem C73_keys : forall cd pd s p f f' u c t base, render cd pd s p f = (f', Ok u) ->
  separate cd pd -> w_config s = Some c -> part cd pd c true t base ->
  exists k a x y, cf_self c = Some k /\ cf_assigned c = Some a /\
    In x (structs p) /\ denotes p k (s_id x) /\ In y (structs p) /\ denotes p a (s_id y) /\
    f' (base ++ identification_file t) =
      Some (DKeys (key_type t a) (key_type t k) (merged_fields t x) (merged_fields t y)).
Proof.
  intros cd pd s p f f' u c t base H S C P.
  destruct (render_part _ _ _ _ _ _ _ _ _ _ _ H S C P) as (f0 & f1 & R & A).
  pose proof (fun q body => run_in base true t s p [] _ q body f0 f1 tt eq_refl R) as Q.
  assert (G : exists d, (do a <- get_assigned s; do k <- get_self s; do fk <- key_fields p k; do fa <- key_fields p a;
      Ok (match t with TRust => DKeys (rust_path a) (rust_path k) fk fa
          | TTypeScript => DKeys a k (map (fun x => (fst x, true)) fk) (map (fun x => (fst x, true)) fa) end) : res doc rerr) = Ok d /\
    f1 (base ++ identification_file t) = Some d).
  { destruct t; apply Q.
    - unfold plan, producer_plan, producer_rust, ops_static. in_plan.
    - let o := fresh "o" in let O := fresh "O" in let F := fresh "F" in intros o O F;
      cbn [plan producer_plan] in O; plan_all O F; reflexivity.
    - unfold plan, producer_plan, producer_ts. in_plan.
    - let o := fresh "o" in let O := fresh "O" in let F := fresh "F" in intros o O F;
      cbn [plan producer_plan] in O; plan_all O F; reflexivity. }
  destruct G as (d & D & F). rewrite A by (unfold identification_file; discriminate).
  apply bind_ok in D as (a & GA & D). apply bind_ok in D as (k & GK & D).
  apply bind_ok in D as (fk & FK & D). apply bind_ok in D as (fa & FA & D).
  assert (K : cf_self c = Some k /\ cf_assigned c = Some a).
  { unfold get_assigned, get_self, get_config, need in GA, GK. rewrite C in GA, GK. cbn [bind] in GA, GK.
    destruct (cf_self c), (cf_assigned c); try discriminate GA; try discriminate GK. inversion GA. inversion GK. split; reflexivity. }
  destruct K as (K1 & K2).
  destruct (key_fields_names _ _ _ FK) as (x & X1 & X2 & X3). destruct (key_fields_names _ _ _ FA) as (y & Y1 & Y2 & Y3).
  exists k, a, x, y. repeat (split; [assumption|]). rewrite F. inversion D as [D']. subst fk fa.
  unfold key_type, merged_fields. destruct t; [reflexivity|]. rewrite !map_map. reflexivity.
Qed.
Print Assumptions C73_keys.

(** two different keys; the second field of the first one is optional *)
Definition keys_store : store := Eval vm_compute in
  match parse (txt "group Id { struct Own { str name; u32 room?; } struct Given { u64 level; } }") with
  | PAccepted s => s | _ => store_new end.
Definition keys_workflow (target : string) : text := txt "&config {
   SelfKey: Id.Own;
   AssignedKey: Id.Given;
   Producer: " ++ txt target ++ txt ";
   Consumer: " ++ txt target ++ txt ";
}
".
Example C73_example : forall t name, (t, name) = (TRust, "rust"%string) \/ (t, name) = (TTypeScript, "typescript"%string) ->
  let w := made (keys_workflow name) keys_store in
  wf_accepts (keys_workflow name) keys_store (fst w) (snd w) /\
  exists c f', w_config (fst w) = Some c /\ part (Some w_client) (Some w_server) c true t w_server /\
    render (Some w_client) (Some w_server) (fst w) (snd w)
      (upd w_files [txt "w"; txt "package.json"] (DManifest 0 [])) = (f', Ok tt) /\
    f' (w_server ++ identification_file t) = Some (match t with
      | TRust => DKeys (txt "Id::Given") (txt "Id::Own") [(txt "name", false); (txt "room", true)] [(txt "level", false)]
      | TTypeScript => DKeys (txt "Id.Given") (txt "Id.Own") [(txt "name", true); (txt "room", true)] [(txt "level", true)] end).
Proof.
  intros t name [E|E]; inversion E; subst t name; cbv zeta; (split; [apply made_accepts; vm_compute; reflexivity|]).
  all: eexists _, (fst (render (Some w_client) (Some w_server) _ _ _)); split; [vm_compute; reflexivity|].
  all: split; [split; [left; reflexivity | eexists; split; reflexivity]|].
  all: split; [apply render_pair; vm_compute; reflexivity | vm_compute; reflexivity].
Qed.
