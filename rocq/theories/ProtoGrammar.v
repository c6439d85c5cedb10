(** The documented syntax of protocol files: declaration trees, their tokens,
    all white-space layouts; and the store operations a tree amounts to. *)
From Coq Require Import String Ascii NArith List Arith Lia Bool.
From Verif Require Import Bytes ProtoModel ProtoProofs ProtoInv ProtoRun.
Import ListNotations.
Close Scope string_scope.
Open Scope list_scope.
Open Scope nat_scope.

(** ** Declarations *)

Record fdecl := FDecl { fd_path : list text; fd_rep : bool; fd_name : text; fd_opt : bool }.

Inductive idecl :=
| ISimple (name : text)
| ITyped (path : list text) (rep : bool) (name : text).

Inductive decl :=
| DStruct (name : text) (fs : list fdecl)
| DEnum (name : text) (is : list idecl)
| DGroup (name : text) (ds : list decl).

Definition decl_ind' (P : decl -> Prop)
  (HS : forall n fs, P (DStruct n fs)) (HE : forall n is, P (DEnum n is))
  (HG : forall n ds, Forall P ds -> P (DGroup n ds)) : forall d, P d :=
  fix go d :=
    match d with
    | DStruct n fs => HS n fs
    | DEnum n is => HE n is
    | DGroup n ds => HG n ds ((fix gos ds : Forall P ds :=
                                match ds return Forall P ds with
                                | [] => Forall_nil P
                                | d :: ds => Forall_cons d (go d) (gos ds)
                                end) ds)
    end.

(** ** Tokens *)

(** [KSimple w] is a word with its semicolon attached *)
Inductive ptok := KW (w : text) | KSimple (w : text) | KOpen | KClose | KSemi | KRep | KOpt | KDot.

Fixpoint path_toks (p : list text) : list ptok :=
  match p with
  | [] => []
  | [t] => [KW t]
  | t :: p => KW t :: KDot :: path_toks p
  end.

Definition field_toks (f : fdecl) : list ptok :=
  path_toks (fd_path f) ++ (if fd_rep f then [KRep] else []) ++ [KW (fd_name f)] ++
  (if fd_opt f then [KOpt] else []) ++ [KSemi].

Definition item_toks (i : idecl) : list ptok :=
  match i with
  | ISimple n => [KSimple n]
  | ITyped p rep n => path_toks p ++ (if rep then [KRep] else []) ++ [KW n; KSemi]
  end.

Fixpoint decl_toks (d : decl) : list ptok :=
  match d with
  | DStruct n fs => KW (txt "struct") :: KW n :: KOpen :: flat_map field_toks fs ++ [KClose]
  | DEnum n is => KW (txt "enum") :: KW n :: KOpen :: flat_map item_toks is ++ [KClose]
  | DGroup n ds => KW (txt "group") :: KW n :: KOpen ::
      (fix go ds := match ds with [] => [] | d :: ds => decl_toks d ++ go ds end) ds ++ [KClose]
  end.
Definition decls_toks (ds : list decl) : list ptok := flat_map decl_toks ds.

(** ** Layouts *)

Definition blank (t : text) : Prop := Forall (fun c => is_ws c = true) t.

(** identifiers: letters, digits and '_', not starting with a digit *)
Definition ident (w : text) : Prop :=
  match w with
  | [] => False
  | c :: _ => is_digit c = false /\ Forall (fun c => word_char c = true) w
  end.

(** a word must not run into the next one *)
Definition separated (rest : text) : Prop :=
  match rest with [] => False | c :: _ => word_char c = false end.

Inductive layout : list ptok -> text -> Prop :=
| L_end : forall b, blank b -> layout [] b
| L_word : forall b w ks rest, blank b -> ident w -> separated rest -> layout ks rest ->
    layout (KW w :: ks) (b ++ w ++ rest)
| L_simple : forall b w ks rest, blank b -> ident w -> layout ks rest ->
    layout (KSimple w :: ks) (b ++ w ++ ";"%char :: rest)
| L_open : forall b ks rest, blank b -> layout ks rest -> layout (KOpen :: ks) (b ++ "{"%char :: rest)
| L_close : forall b ks rest, blank b -> layout ks rest -> layout (KClose :: ks) (b ++ "}"%char :: rest)
| L_semi : forall b ks rest, blank b -> layout ks rest -> layout (KSemi :: ks) (b ++ ";"%char :: rest)
| L_opt : forall b ks rest, blank b -> layout ks rest -> layout (KOpt :: ks) (b ++ "?"%char :: rest)
| L_dot : forall b ks rest, blank b -> layout ks rest -> layout (KDot :: ks) (b ++ "."%char :: rest)
| L_rep : forall b b' ks rest, blank b -> blank b' -> layout ks rest ->
    layout (KRep :: ks) (b ++ "["%char :: b' ++ "]"%char :: rest).

(** ** Well-formed declarations *)

Definition not_keyword (w : text) : Prop := get_entity w = None.

Definition path_ok_syn (p : list text) : Prop :=
  match p with [] => False | t :: _ => not_keyword t end.

Definition item_syn (i : idecl) : Prop :=
  match i with
  | ISimple n => not_keyword n
  | ITyped p _ _ => path_ok_syn p
  end.

Fixpoint decl_syn (d : decl) : Prop :=
  match d with
  | DStruct _ fs => Forall (fun f => path_ok_syn (fd_path f)) fs
  | DEnum _ is => Forall item_syn is
  | DGroup _ ds => (fix go ds := match ds with [] => True | d :: ds => decl_syn d /\ go ds end) ds
  end.

(** ** The store operations of a tree *)

Definition ok {A E} (r : res A E) : option A := match r with Ok a => Some a | _ => None end.
Definition obind {A B} (o : option A) (f : A -> option B) : option B :=
  match o with Some a => f a | None => None end.

Fixpoint elab_ftype (s : store) (p : list text) : option store :=
  match p with
  | [] => Some s
  | t :: p => obind (ok (set_field_type s t)) (fun s => elab_ftype s p)
  end.
Fixpoint elab_itype (s : store) (p : list text) : option store :=
  match p with
  | [] => Some s
  | t :: p => obind (ok (set_enum_type s t)) (fun s => elab_itype s p)
  end.

Definition elab_field (s : store) (f : fdecl) : option store :=
  obind (elab_ftype s (fd_path f)) (fun s =>
  obind (if fd_rep f then ok (set_repeated s) else Some s) (fun s =>
  obind (ok (set_field_name s (fd_name f))) (fun s =>
  obind (if fd_opt f then ok (set_optional s) else Some s) (fun s =>
  ok (close_field s))))).

Definition elab_item (s : store) (i : idecl) : option store :=
  match i with
  | ISimple n => ok (set_simple s n)
  | ITyped p rep n =>
    obind (elab_itype s p) (fun s =>
    obind (if rep then ok (set_repeated s) else Some s) (fun s =>
    ok (set_enum_name s n)))
  end.

Definition elab_list {A} (f : store -> A -> option store) : store -> list A -> option store :=
  fix go (s : store) (l : list A) : option store :=
  match l with
  | [] => Some s
  | x :: l => obind (f s x) (fun s => go s l)
  end.

Fixpoint elab (s : store) (d : decl) : option store :=
  match d with
  | DStruct n fs =>
    obind (ok (open_struct s n)) (fun s => obind (elab_list elab_field s fs) (fun s => ok (close s)))
  | DEnum n is =>
    obind (ok (open_enum s n)) (fun s => obind (elab_list elab_item s is) (fun s => ok (close s)))
  | DGroup n ds =>
    obind (ok (open_group s n)) (fun s =>
    obind ((fix go (s : store) (ds : list decl) :=
              match ds with
              | [] => Some s
              | d :: ds => obind (elab s d) (fun s => go s ds)
              end) s ds) (fun s => ok (close s)))
  end.
Definition elab_decls (s : store) (ds : list decl) : option store := elab_list elab s ds.

Lemma elab_group : forall s n ds, elab s (DGroup n ds) =
  obind (ok (open_group s n)) (fun s => obind (elab_decls s ds) (fun s => ok (close s))).
Proof. reflexivity. Qed.

Lemma decl_toks_group : forall n ds, decl_toks (DGroup n ds) =
  KW (txt "group") :: KW n :: KOpen :: decls_toks ds ++ [KClose].
Proof. reflexivity. Qed.

(** ** Lexing a layout *)

Lemma lex_blank : forall b rest pass, blank b -> lex (b ++ rest) [] pass = lex rest [] (pass + length b).
Proof.
  induction b as [|c b IH]; intros rest pass H; [cbn [app length]; rewrite Nat.add_0_r; reflexivity|].
  inversion H; subst. cbn [app lex]. cbv zeta.
  assert (is_ascii c = true /\ is_digit c = false) as [A1 A2].
  { revert H2. clear. destruct c as [[] [] [] [] [] [] [] []]; vm_compute; auto. }
  rewrite A1, A2, H2. cbn [negb andb]. rewrite IH by assumption. cbn [length]. f_equal. lia.
Qed.

Definition breaker (c : ascii) : bool := is_break c || Ascii.eqb c "[".

Lemma lex_word_loop : forall w str pass rest,
  str <> [] -> Forall (fun c => word_char c = true) w ->
  lex (w ++ rest) str pass = lex rest (str ++ w) (pass + length w).
Proof.
  induction w as [|c w IH]; intros str pass rest N H.
  - cbn [app length]. rewrite app_nil_r, Nat.add_0_r. reflexivity.
  - inversion H; subst. destruct (word_char_facts c H2) as (W1 & W2 & W3 & W4 & W5).
    cbn [app lex]. cbv zeta. rewrite W1, W2, W3, W4, W5.
    destruct str as [|x str]; [congruence|]. cbn [negb]. rewrite !andb_false_r. cbn [orb andb].
    assert (negb (is_alnum c) && negb (Ascii.eqb c "_") = false) as ->.
    { unfold word_char in H2. destruct (is_alnum c), (Ascii.eqb c "_"); auto. }
    rewrite IH; [|destruct str; discriminate|assumption].
    rewrite <- app_assoc. cbn [app length]. f_equal. lia.
Qed.

Lemma lex_word : forall b w c rest, blank b -> ident w ->
  is_ws c = true \/ breaker c = true ->
  lex (b ++ w ++ c :: rest) [] 0 =
  Ok (TWord w (length b + length w) (if breaker c then Some c else None)).
Proof.
  intros b w c rest B I D. rewrite lex_blank by assumption. cbn [Nat.add].
  destruct w as [|x w]; [destruct I|]. destruct I as [I1 I2]. inversion I2; subst.
  destruct (word_char_facts x H1) as (W1 & W2 & W3 & W4 & W5).
  cbn [app lex]. cbv zeta. rewrite W1, W2, W3, W4, W5, I1. cbn [negb andb orb].
  assert (negb (is_alnum x) && negb (Ascii.eqb x "_") = false) as ->.
  { unfold word_char in H1. destruct (is_alnum x), (Ascii.eqb x "_"); auto. }
  rewrite (lex_word_loop w [x]) by (auto; discriminate).
  cbn [app lex]. cbv zeta.
  assert (CF : is_ascii c = true /\ Ascii.eqb c "]" = false /\ is_ws c || is_break c || Ascii.eqb c "[" = true).
  { unfold breaker in D. split; [|split].
    - revert D. clear. destruct c as [[] [] [] [] [] [] [] []]; vm_compute; intuition congruence.
    - revert D. clear. destruct c as [[] [] [] [] [] [] [] []]; vm_compute; intuition congruence.
    - destruct D as [-> | D]; [reflexivity|]. rewrite <- orb_assoc, D. apply orb_true_r. }
  destruct CF as (C1 & C2 & C3). rewrite C1, C2, C3, !andb_false_r. cbn [negb].
  unfold breaker. f_equal. f_equal. cbn [length]. lia.
Qed.

Lemma layout_head : forall ks c t, layout ks (c :: t) ->
  is_ws c = true \/ breaker c = true \/ word_char c = true.
Proof.
  intros ks c t H.
  assert (K : forall b (x : ascii) r, blank b -> (c :: t = b ++ x :: r)%list ->
            is_ws c = true \/ c = x).
  { intros [|y b] x r B E; cbn [app] in E; injection E as -> ->; [auto|]. inversion B; auto. }
  inversion H; subst;
    try (match goal with
         | [ E : blank ?b, E' : (?b ++ ?x :: ?r)%list = _ |- _ ] =>
           destruct (K b x r E (eq_sym E')) as [A | ->]; auto; right; left; reflexivity
         end).
  - inversion H0; auto.
  - destruct w as [|x w]; [destruct H2|]. cbn [app] in H0.
    destruct (K b x _ H1 (eq_sym H0)) as [A | ->]; auto.
    destruct H2 as [_ H2]. inversion H2; auto.
  - destruct w as [|x w]; [destruct H2|]. cbn [app] in H0.
    destruct (K b x _ H1 (eq_sym H0)) as [A | ->]; auto.
    destruct H2 as [_ H2]. inversion H2; auto.
Qed.

(** a layout starts with ';' only if its first token is one *)
Lemma layout_semi : forall ks t, layout ks (";"%char :: t) -> exists ks', ks = KSemi :: ks'.
Proof.
  intros ks t H.
  assert (K : forall b (x : ascii) r, blank b -> (";"%char :: t = b ++ x :: r)%list -> x = ";"%char).
  { intros [|y b] x r B E; cbn [app] in E; injection E as E1 E2; subst; [auto|].
    inversion B as [|? ? Q]; vm_compute in Q; discriminate. }
  inversion H; subst; eauto;
    try (match goal with
         | [ E : blank ?b, E' : (?b ++ ?x :: ?r)%list = _ |- _ ] =>
           specialize (K b x r E (eq_sym E')); discriminate
         end).
  - inversion H0; discriminate.
  - destruct w as [|x w]; [destruct H2|]. cbn [app] in H0.
    specialize (K b x _ H1 (eq_sym H0)). subst x. destruct H2 as [_ H2]. inversion H2; discriminate.
  - destruct w as [|x w]; [destruct H2|]. cbn [app] in H0.
    specialize (K b x _ H1 (eq_sym H0)). subst x. destruct H2 as [_ H2]. inversion H2; discriminate.
Qed.

Lemma word_char_not_break : forall c, word_char c = true -> breaker c = false.
Proof.
  intros c H. destruct (word_char_facts c H) as (_ & _ & A & B & _). unfold breaker. rewrite A, B. reflexivity.
Qed.

Lemma lay_word : forall w ks t, layout (KW w :: ks) t -> exists off brk,
  lex t [] 0 = Ok (TWord w off brk) /\ layout ks (skipn off t) /\
  ((forall ks', ks <> KSemi :: ks') -> brk <> Some ";"%char).
Proof.
  intros w ks t H. inversion H as [|b w' ks' rest H2 H3 H4 H5| | | | | | |]; subst.
  destruct rest as [|c rest]; [destruct H4|]. cbn [separated] in H4.
  assert (D : is_ws c = true \/ breaker c = true).
  { destruct (layout_head _ _ _ H5) as [A | [A | A]]; auto. congruence. }
  exists (length b + length w), (if breaker c then Some c else None).
  split; [apply lex_word; auto|]. split.
  - rewrite app_assoc, skipn_app, <- app_length, skipn_all, Nat.sub_diag. exact H5.
  - intros N. destruct (breaker c); [|discriminate]. intros [= ->].
    destruct (layout_semi _ _ H5) as (ks' & E). elim (N ks' E).
Qed.

Lemma lay_simple : forall w ks t, layout (KSimple w :: ks) t -> exists off,
  lex t [] 0 = Ok (TWord w off (Some ";"%char)) /\
  lex (skipn off t) [] 0 = Ok (TSemi 1) /\ layout ks (skipn 1 (skipn off t)).
Proof.
  intros w ks t H. inversion H; subst. exists (length b + length w).
  split; [rewrite lex_word; auto|].
  rewrite app_assoc, skipn_app, <- app_length, skipn_all, Nat.sub_diag. cbn [app skipn].
  split; [reflexivity | assumption].
Qed.

Ltac lay_sym :=
  intros ks t H; inversion H; subst;
  match goal with
  | [ E : blank ?b |- _ ] =>
    exists (length b + 1); split;
    [rewrite lex_blank by assumption; cbn [Nat.add]; cbn; f_equal; f_equal; lia
    |rewrite skipn_app, skipn_all2 by lia;
     replace (length b + 1 - length b) with 1 by lia; cbn [app skipn]; assumption]
  end.

Lemma lay_open : forall ks t, layout (KOpen :: ks) t -> exists off,
  lex t [] 0 = Ok (TOpen off) /\ layout ks (skipn off t).
Proof. lay_sym. Qed.
Lemma lay_close : forall ks t, layout (KClose :: ks) t -> exists off,
  lex t [] 0 = Ok (TClose off) /\ layout ks (skipn off t).
Proof. lay_sym. Qed.
Lemma lay_semi : forall ks t, layout (KSemi :: ks) t -> exists off,
  lex t [] 0 = Ok (TSemi off) /\ layout ks (skipn off t).
Proof. lay_sym. Qed.
Lemma lay_opt : forall ks t, layout (KOpt :: ks) t -> exists off,
  lex t [] 0 = Ok (TOpt off) /\ layout ks (skipn off t).
Proof. lay_sym. Qed.
Lemma lay_dot : forall ks t, layout (KDot :: ks) t -> exists off,
  lex t [] 0 = Ok (TDot off) /\ layout ks (skipn off t).
Proof. lay_sym. Qed.

Lemma lay_rep : forall ks t, layout (KRep :: ks) t -> exists off,
  lex t [] 0 = Ok (TRep off) /\ layout ks (skipn off t).
Proof.
  intros ks t H. inversion H; subst. exists (length b + 1 + length b' + 1). split.
  - rewrite lex_blank by assumption. cbn [Nat.add]. change ("["%char :: b' ++ "]"%char :: rest)
      with (["["%char] ++ b' ++ "]"%char :: rest). cbn [app].
    assert (E : forall r p, lex ("["%char :: r) [] p = lex r [] (S p)) by reflexivity.
    rewrite E, lex_blank by assumption. cbn. f_equal. f_equal. lia.
  - rewrite skipn_app, skipn_all2 by lia.
    replace (length b + 1 + length b' + 1 - length b) with (S (length b' + 1)) by lia.
    cbn [app skipn]. rewrite skipn_app, skipn_all2 by lia.
    replace (length b' + 1 - length b') with 1 by lia. cbn [app skipn]. assumption.
Qed.
