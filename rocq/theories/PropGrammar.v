(** Property C21: parsing follows the grammar. *)
From Coq Require Import String Ascii NArith List Arith Lia Bool.
From Verif Require Import Bytes ProtoModel ProtoProofs ProtoInv ProtoRun ProtoGrammar ProtoElab ProtoTree
  ProtoBuild ProtoRebuild PropProto.
Import ListNotations.
Close Scope string_scope.
Open Scope list_scope.
Open Scope nat_scope.

(** nothing is left open *)
Definition finished (s : store) : Prop :=
  c_struct s = None /\ c_enum s = None /\ c_field s = None /\ c_group s = None.

(** Partial: every declaration tree in which field names are unique per struct,
    group names are unique per scope and types are named relative to the own
    group or from the root is read back exactly, for every white-space layout
    except white space before the ';' of a variant without type.  The
    refutations below show that these exceptions are needed. *)
Theorem C21_grammar_partial : forall ds t,
  Forall decl_syn ds -> wf_decls ds -> layout (decls_toks ds) t ->
  exists s, accepts t s /\ finished s /\ decls_of s = ds.
Proof.
  intros ds t SY WF L. destruct (parse_reads_tree ds t SY WF L) as (s & A & B1 & B2 & B3 & B4 & B5).
  exists s. split; [exact A|]. split; [repeat split; assumption | exact B5].
Qed.
Print Assumptions C21_grammar_partial.

(** a text has one reading *)
Theorem C21_unambiguous : forall ds ds' t,
  Forall decl_syn ds -> wf_decls ds -> layout (decls_toks ds) t ->
  Forall decl_syn ds' -> wf_decls ds' -> layout (decls_toks ds') t -> ds = ds'.
Proof.
  intros ds ds' t A B C A' B' C'.
  destruct (C21_grammar_partial ds t A B C) as (s & S1 & _ & S2).
  destruct (C21_grammar_partial ds' t A' B' C') as (s' & S1' & _ & S2').
  unfold accepts in *. congruence.
Qed.
Print Assumptions C21_unambiguous.

(** ** Printing *)

Definition print_tok (k : ptok) : text :=
  match k with
  | KW w => w ++ txt " "
  | KSimple w => w ++ txt "; "
  | KOpen => txt "{ " | KClose => txt "} " | KSemi => txt "; " | KOpt => txt "? " | KDot => txt "." | KRep => txt "[] "
  end.
Definition print (ds : list decl) : text := flat_map print_tok (decls_toks ds).

Definition tok_ident (k : ptok) : Prop :=
  match k with KW w | KSimple w => ident w | _ => True end.

Lemma layout_blank : forall ks t b, blank b -> layout ks t -> layout ks (b ++ t).
Proof.
  intros ks t b B L. destruct L; rewrite ?app_assoc;
    try (rewrite <- !(app_assoc (b ++ b0)));
    econstructor; eauto; apply Forall_app; auto.
Qed.

Lemma print_layout : forall ks, Forall tok_ident ks -> layout ks (flat_map print_tok ks).
Proof.
  induction ks as [|k ks IH]; intro F; [constructor; constructor|].
  inversion F as [|? ? F1 F2]; subst. specialize (IH F2). cbn [flat_map].
  assert (SP : layout ks (" "%char :: flat_map print_tok ks)).
  { apply (layout_blank ks (flat_map print_tok ks) [" "%char]); [repeat constructor | exact IH]. }
  destruct k as [w | w | | | | | |]; cbn [print_tok tok_ident] in *.
  - rewrite <- app_assoc. apply (L_word []); [constructor | exact F1 | reflexivity | exact SP].
  - rewrite <- app_assoc. apply (L_simple []); [constructor | exact F1 | exact SP].
  - apply (L_open []); [constructor | exact SP].
  - apply (L_close []); [constructor | exact SP].
  - apply (L_semi []); [constructor | exact SP].
  - apply (L_rep [] []); [constructor | constructor | exact SP].
  - apply (L_opt []); [constructor | exact SP].
  - apply (L_dot []); [constructor | exact IH].
Qed.

(** printing and parsing *)
Theorem C21_print_parse : forall ds,
  Forall decl_syn ds -> wf_decls ds -> Forall tok_ident (decls_toks ds) ->
  exists s, accepts (print ds) s /\ finished s /\ decls_of s = ds.
Proof.
  intros ds A B C. apply (C21_grammar_partial ds (print ds) A B). apply print_layout. exact C.
Qed.
Print Assumptions C21_print_parse.

Definition demo_decls : list decl :=
  [DGroup (txt "G")
     [DStruct (txt "B") [FDecl [txt "u8"] false (txt "a") false; FDecl [txt "str"] false (txt "b") true];
      DGroup (txt "H") [DStruct (txt "C") [FDecl [txt "i32"] true (txt "n") false]];
      DStruct (txt "D") [FDecl [txt "H"; txt "C"] false (txt "c") false; FDecl [txt "B"] true (txt "bs") false]];
   DEnum (txt "E") [ISimple (txt "One"); ISimple (txt "Two"); ITyped [txt "G"; txt "B"] false (txt "Three");
                    ITyped [txt "u16"] true (txt "Four")];
   DStruct (txt "A") [FDecl [txt "E"] false (txt "e") true; FDecl [txt "G"; txt "H"; txt "C"] false (txt "c") false;
                      FDecl [txt "f64"] false (txt "x") false]].

(** *** A checker for well-scoped trees *)

Definition peqb (p q : list text) : bool := if list_eq_dec (list_eq_dec ascii_dec) p q then true else false.
Definition inb (p : list text) (env : list (list text)) : bool := existsb (peqb p) env.
Fixpoint prefixb (a p : list text) : bool :=
  match a, p with
  | [], _ => true
  | x :: a, y :: p => teqb x y && prefixb a p
  | _, [] => false
  end.
Definition typeb (env : list (list text)) (own p : list text) : bool :=
  match p with [k] => is_primitive k | _ => false end || inb (own ++ p) env ||
  (inb p env && (match own with [] => true | _ => false end || negb (prefixb own p))).
Fixpoint nodupb (l : list text) : bool :=
  match l with [] => true | x :: l => negb (existsb (teqb x) l) && nodupb l end.
Fixpoint wf_declb (own : list text) (env : list (list text)) (d : decl) : bool :=
  match d with
  | DStruct _ fs => nodupb (map fd_name fs) && forallb (fun f => typeb env own (fd_path f)) fs
  | DEnum _ is => forallb (fun i => match i with ISimple _ => true | ITyped p _ _ => typeb env own p end) is
  | DGroup n ds =>
    nodupb (flat_map group_name ds) &&
    (fix go env ds := match ds with
                      | [] => true
                      | d :: ds => wf_declb (own ++ [n]) env d && go (env ++ names (own ++ [n]) d) ds
                      end) env ds
  end.
Fixpoint wf_inb (own : list text) (env : list (list text)) (ds : list decl) : bool :=
  match ds with
  | [] => true
  | d :: ds => wf_declb own env d && wf_inb own (env ++ names own d) ds
  end.
Definition wf_declsb (ds : list decl) : bool := nodupb (flat_map group_name ds) && wf_inb [] [] ds.

Lemma inb_ok : forall p env, inb p env = true -> In p env.
Proof.
  intros p env H. apply existsb_exists in H as (q & A & B). unfold peqb in B.
  destruct (list_eq_dec (list_eq_dec ascii_dec) p q); [subst; exact A | discriminate].
Qed.
Lemma prefixb_ok : forall a q, prefixb a (a ++ q) = true.
Proof. induction a as [|x a IH]; intro q; [reflexivity|]. cbn [prefixb app]. rewrite teqb_refl. apply IH. Qed.
Lemma typeb_ok : forall env own p, typeb env own p = true -> type_ok env own p.
Proof.
  intros env own p H. unfold typeb in H. apply orb_true_iff in H as [H | H]; [apply orb_true_iff in H as [H | H]|].
  - left. destruct p as [|k [|]]; try discriminate. exists k. auto.
  - right. left. apply inb_ok. exact H.
  - apply andb_true_iff in H as [A B]. right. right. split; [apply inb_ok; exact A|].
    intros [N (q & _ & ->)]. rewrite prefixb_ok in B. destruct own; [congruence | discriminate].
Qed.
Lemma nodupb_ok : forall l, nodupb l = true -> NoDup l.
Proof.
  induction l as [|x l IH]; intro H; [constructor|]. cbn [nodupb] in H. apply andb_true_iff in H as [A B].
  constructor; [|apply IH; exact B]. intro K. apply negb_true_iff in A.
  assert (E : existsb (teqb x) l = true) by (apply existsb_exists; exists x; split; [exact K | apply teqb_refl]).
  congruence.
Qed.
Lemma forallb_ok : forall A (f : A -> bool) (P : A -> Prop) l, (forall x, f x = true -> P x) ->
  forallb f l = true -> Forall P l.
Proof.
  intros A f P l H K. apply Forall_forall. intros x X. apply H. rewrite forallb_forall in K. apply K. exact X.
Qed.
Lemma wf_declb_ok : forall d own env, wf_declb own env d = true -> wf_decl own env d.
Proof.
  induction d as [n fs | n is | n ds IH] using decl_ind'; intros own env H; cbn [wf_declb] in H.
  - apply andb_true_iff in H as [A B]. split; [apply nodupb_ok; exact A|].
    eapply forallb_ok; [|exact B]. intros f. apply typeb_ok.
  - eapply forallb_ok; [|exact H]. intros [m | p r m]; [auto | apply typeb_ok].
  - apply wf_decl_group. apply andb_true_iff in H as [A B]. split; [apply nodupb_ok; exact A|].
    clear A. revert env B. induction IH as [|d ds D F IHd]; intros env B; [exact I|].
    apply andb_true_iff in B as [B1 B2]. split; [apply D; exact B1 | apply IHd; exact B2].
Qed.
Lemma wf_declsb_ok : forall ds, wf_declsb ds = true -> wf_decls ds.
Proof.
  intros ds H. apply andb_true_iff in H as [A B]. split; [apply nodupb_ok; exact A|]. clear A.
  revert B. generalize (@nil (list text)) as env. generalize (@nil text) as own.
  induction ds as [|d ds IH]; intros own env B; [exact I|]. apply andb_true_iff in B as [B1 B2].
  split; [apply wf_declb_ok; exact B1 | apply IH; exact B2].
Qed.

Lemma demo_decls_ok : Forall decl_syn demo_decls /\ wf_decls demo_decls /\ Forall tok_ident (decls_toks demo_decls).
Proof.
  split; [repeat constructor|]. split; [apply wf_declsb_ok; vm_compute; reflexivity|]. repeat constructor.
Qed.

(** the example file of [PropProto] is a layout of this tree *)
Example C21_demo : decls_of demo_store = demo_decls.
Proof. vm_compute. reflexivity. Qed.

Example C21_demo_hypotheses : exists ds, length ds = 3 /\ Forall decl_syn ds /\ wf_decls ds /\ layout (decls_toks ds) (print ds).
Proof.
  exists demo_decls. destruct demo_decls_ok as (A & B & C).
  split; [reflexivity|]. split; [exact A|]. split; [exact B|]. apply print_layout. exact C.
Qed.

(** ** What is missing from the full statement *)

(** a space before the ';' of a variant without type *)
Theorem C21_space_before_semicolon_refuted : exists pre post s,
  accepts (pre ++ txt ";" ++ post) s /\ parse (pre ++ txt " ;" ++ post) = PErrors.
Proof.
  exists (txt "enum E { One"), (txt " Two; }"). eexists. split; vm_compute; reflexivity.
Qed.

(** A struct of an enclosing group cannot be named from a nested group by its
    name only, although the same reference works in the enclosing group. *)
Theorem C21_enclosing_group_refuted : exists a b c s,
  parse (a ++ b ++ c) = PStopped /\ accepts (a ++ txt "struct C { B b; }" ++ c) s /\
  b = txt "group H { struct C { B b; } }".
Proof.
  exists (txt "group G { struct B { u8 a; } "), (txt "group H { struct C { B b; } }"), (txt " }"). eexists.
  split; [vm_compute; reflexivity|]. split; [vm_compute; reflexivity | reflexivity].
Qed.

(** The qualified name of a struct stops the parser inside the group that is
    being read, and works after it. *)
Theorem C21_qualified_inside_group_refuted : exists a b s,
  parse (a ++ b ++ txt "}") = PStopped /\ accepts (a ++ txt "}" ++ b) s.
Proof.
  exists (txt "group G { struct B { u8 a; }"), (txt "struct C { G.B b; }"). eexists.
  split; vm_compute; reflexivity.
Qed.
