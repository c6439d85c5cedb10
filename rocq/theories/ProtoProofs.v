(** Proofs about the protocol parser: lexer locality, termination, the store
    invariant, lockstep of a text and its prefixes. *)
From Coq Require Import String Ascii NArith List Arith Lia Bool.
From Verif Require Import Bytes ProtoModel.
Import ListNotations.
Close Scope string_scope.
Open Scope list_scope.
Open Scope nat_scope.

Lemma teqb_eq : forall a b, teqb a b = true <-> a = b.
Proof.
  induction a; destruct b; cbn [teqb]; split; intro H; try congruence; auto.
  - apply andb_true_iff in H as [H1 H2]. apply Ascii.eqb_eq in H1. apply IHa in H2. congruence.
  - injection H as -> ->. rewrite Ascii.eqb_refl. apply IHa. reflexivity.
Qed.

Lemma teqb_refl : forall a, teqb a a = true.
Proof. intro. now apply teqb_eq. Qed.

Lemma teqb_neq : forall a b, teqb a b = false <-> a <> b.
Proof.
  intros. split.
  - intros H ->. rewrite teqb_refl in H. discriminate.
  - intro H. destruct (teqb a b) eqn:E; auto. apply teqb_eq in E. contradiction.
Qed.

(** ** Lexer *)

(** letters, digits and '_' *)
Definition word_char (c : ascii) : bool := is_alnum c || Ascii.eqb c "_".

Definition offset_of (t : tok) : nat :=
  match t with
  | TWord _ o _ | TOpen o | TClose o | TSemi o | TRep o | TOpt o | TDot o => o
  | TEnd => 0
  end.

Ltac lexcase :=
  match goal with
  | |- context [if ?b then _ else _] => destruct b eqn:?
  | |- context [match ?s with [] => _ | _ :: _ => _ end] => destruct s eqn:?
  end.

(** every character class, by computation over the 256 characters *)
Lemma word_char_facts : forall c, word_char c = true ->
  is_ascii c = true /\ is_ws c = false /\ is_break c = false /\
  Ascii.eqb c "[" = false /\ Ascii.eqb c "]" = false.
Proof.
  intros [[] [] [] [] [] [] [] []]; vm_compute; intro H; repeat split; congruence.
Qed.

Lemma pushed_word_char : forall c,
  negb (is_alnum c) && negb (Ascii.eqb c "_") = false -> word_char c = true.
Proof. intros c H. unfold word_char. destruct (is_alnum c), (Ascii.eqb c "_"); auto. Qed.

(** What lexing a text says about every longer text. *)
Lemma lex_cases : forall content str pass,
  Forall (fun c => word_char c = true) str ->
  match lex content str pass with
  | Err e => forall more, lex (content ++ more) str pass = Err e
  | Panic => False
  | Ok TEnd => str = [] /\
      (forall more, lex (content ++ more) str pass = lex more [] (pass + length content))
  | Ok t =>
      (pass <= offset_of t <= pass + length content /\
       (str = [] -> pass < offset_of t) /\
       (match t with TWord _ _ _ => True | _ => pass < offset_of t end) /\
       forall more, lex (content ++ more) str pass = Ok t)
      \/
      (exists w c, t = TWord (w ++ [c]) (pass + length content - 1) None /\ word_char c = true /\
         (exists front, content = front ++ [c] \/ (content = [] /\ str = front ++ [c])) /\
         (content = [] -> str = w ++ [c]) /\
         (w <> [] -> str = [] -> 2 <= length content))
  end.
Proof.
  induction content as [|c content IH]; intros str pass Hs.
  - cbn [lex app]. destruct str as [|x str].
    + split; [reflexivity|]. intros. cbn [length]. rewrite Nat.add_0_r. reflexivity.
    + destruct (@exists_last _ (x :: str)) as (w & y & E); [discriminate|].
      right. exists w, y. rewrite E. cbn [length]. rewrite Nat.add_0_r.
      rewrite E in Hs. apply Forall_app in Hs as [_ Hs]. inversion Hs; subst.
      split; [reflexivity|]. split; [assumption|].
      split; [exists w; right; split; reflexivity|].
      split; [reflexivity|]. intros _ H. destruct w; discriminate.
  - cbn [lex app]. cbv zeta.
    destruct (negb (is_ascii c)) eqn:E1; [reflexivity|].
    destruct (is_digit c && match str with [] => true | _ => false end) eqn:E2; [reflexivity|].
    assert (SKIP : str = [] ->
      match lex content str (S pass) with
      | Err e => forall more, lex (content ++ more) str (S pass) = Err e
      | Panic => False
      | Ok TEnd => str = [] /\
          (forall more, lex (content ++ more) str (S pass) = lex more [] (pass + length (c :: content)))
      | Ok t =>
          (pass <= offset_of t <= pass + length (c :: content) /\
           (str = [] -> pass < offset_of t) /\
           (match t with TWord _ _ _ => True | _ => pass < offset_of t end) /\
           forall more, lex (content ++ more) str (S pass) = Ok t)
          \/
          (exists w x, t = TWord (w ++ [x]) (pass + length (c :: content) - 1) None /\ word_char x = true /\
             (exists front, c :: content = front ++ [x] \/ (c :: content = [] /\ str = front ++ [x])) /\
             (c :: content = [] -> str = w ++ [x]) /\
             (w <> [] -> str = [] -> 2 <= length (c :: content)))
      end).
    { intros ->. specialize (IH [] (S pass) (Forall_nil _)).
      destruct (lex content [] (S pass)) as [t|e|]; auto.
      destruct t; cbn [offset_of length] in *;
        try (destruct IH as [(A & B & C & D) | (w' & x & A & _)];
             [left; repeat split; auto; try lia; specialize (B eq_refl); lia | discriminate A]).
      - destruct IH as [(A & B & C & D) | (w' & x & A & A2 & (fr & A3) & A4 & A5)].
        + left. repeat split; auto; try lia.
        + right. exists w', x. split; [rewrite A; f_equal; lia|]. split; [assumption|].
          split.
          * destruct A3 as [A3 | [_ A3]]; [|destruct fr; discriminate].
            exists (c :: fr). left. rewrite A3. reflexivity.
          * split; [discriminate|]. intros H1 H2. specialize (A5 H1 H2). lia.
      - destruct IH as [A B]. split; auto. intro more. rewrite B. f_equal. lia. }
    destruct (is_ws c && match str with [] => true | _ => false end) eqn:E3.
    { apply SKIP. destruct str; auto. now rewrite andb_false_r in E3. }
    destruct (is_break c && match str with [] => true | _ => false end) eqn:E4.
    { repeat lexcase; left; cbn [offset_of length]; repeat split; auto; lia. }
    destruct (Ascii.eqb c "[" && match str with [] => true | _ => false end) eqn:E5.
    { apply SKIP. destruct str; auto. now rewrite andb_false_r in E5. }
    clear SKIP.
    destruct (Ascii.eqb c "]") eqn:E6.
    { destruct str as [|d str].
      - left; cbn [offset_of length]; repeat split; auto; lia.
      - destruct (Ascii.eqb d "["); [|reflexivity].
        left; cbn [offset_of length]; repeat split; auto; lia. }
    destruct (is_ws c || is_break c || Ascii.eqb c "[") eqn:E7.
    { left. cbn [offset_of length]. split; [lia|]. split; [|split; [exact I | reflexivity]].
      intros ->. rewrite ?andb_true_r in *.
      rewrite E3, E4, E5 in E7. discriminate. }
    destruct (negb (is_alnum c) && negb (Ascii.eqb c "_")) eqn:E8; [reflexivity|].
    apply pushed_word_char in E8.
    specialize (IH (str ++ [c]) (S pass)).
    assert (Hs' : Forall (fun x => word_char x = true) (str ++ [c])).
    { apply Forall_app. split; auto. }
    specialize (IH Hs').
    destruct (lex content (str ++ [c]) (S pass)) as [t|e|]; auto.
    destruct t; cbn [offset_of length] in *;
      try (destruct IH as [(A & B & C & D) | (w' & x & A & _)];
           [left; repeat split; auto; try lia | discriminate A]).
    + destruct IH as [(A & B & C & D) | (w' & x & A & A2 & (fr & A3) & A4 & A5)].
      * left. repeat split; auto; try lia.
      * right. exists w', x. split; [rewrite A; f_equal; lia|]. split; [assumption|].
        split.
        -- destruct A3 as [A3 | [A3 A3']].
           ++ exists (c :: fr). left. rewrite A3. reflexivity.
           ++ subst content. apply app_inj_tail in A3' as [_ <-].
              exists []. left. reflexivity.
        -- split; [discriminate|]. intros H1 ->.
           destruct content as [|y content]; [|cbn [length]; lia].
           specialize (A4 eq_refl). cbn [app] in A4.
           destruct w' as [|? [|? ?]]; try discriminate. now elim H1.
    + destruct IH as [A _]. destruct str; discriminate.
Qed.

Lemma lex_ok_nonempty_word : forall content str pass w o b,
  lex content str pass = Ok (TWord w o b) -> w <> [].
Proof.
  induction content as [|c content IH]; intros str pass w o b; cbn [lex].
  - destruct str; [discriminate|]. intros [= <- _ _]. discriminate.
  - cbv zeta. destruct str as [|x str].
    + rewrite ?andb_true_r.
      repeat match goal with
      | |- (if ?x then _ else _) = _ -> _ => destruct x eqn:?
      end; try discriminate; try (intro H; eapply IH; exact H).
    + rewrite ?andb_false_r.
      repeat match goal with
      | |- (if ?x then _ else _) = _ -> _ => destruct x eqn:?
      end; try discriminate; try (intro H; eapply IH; exact H);
      intros [= <- _ _]; discriminate.
Qed.
