(** The documented syntax of workflow files: declarations, their tokens, all
    layouts with white space and comments, and what the parser makes of them. *)
From Coq Require Import String Ascii NArith List Arith Lia Bool.
From Verif Require Import Bytes ProtoModel ProtoProofs ProtoInv ProtoRun ProtoTypes ProtoService
  ProtoGrammar WfModel WfProofs.
Import ListNotations.
Close Scope string_scope.
Open Scope list_scope.
Open Scope nat_scope.

(** ** Tokens and layouts *)

Inductive wk := KWd (w : text) | KSym (c : ascii).

(** white space and comments; a comment ends with its line *)
Inductive gap : text -> Prop :=
| G_nil : gap []
| G_ws : forall c g, is_ws c = true -> gap g -> gap (c :: g)
| G_comment : forall body g, Forall (fun c => c <> lf /\ is_ascii c = true) body -> gap g ->
    gap ("#"%char :: body ++ lf :: g).

(** words: letters, digits and '_', not starting with a digit; '@' or '&' may
    come first *)
Definition wident (w : text) : Prop :=
  match w with
  | [] => False
  | c :: r => is_digit c = false /\ (word_char c = true \/ c = "@"%char \/ c = "&"%char) /\
              Forall (fun c => word_char c = true) r
  end.

(** a word must not run into the next one *)
Definition apart (rest : text) : Prop :=
  match rest with [] => False | c :: _ => ender c = true \/ c = "#"%char end.

Inductive wlayout : list wk -> text -> Prop :=
| WL_end : forall g, gap g -> wlayout [] g
| WL_word : forall g w ks rest, gap g -> wident w -> apart rest -> wlayout ks rest ->
    wlayout (KWd w :: ks) (g ++ w ++ rest)
| WL_sym : forall g c ks rest, gap g -> is_wbreak c = true -> wlayout ks rest ->
    wlayout (KSym c :: ks) (g ++ c :: rest).

(** ** Lexing a layout *)

Lemma comment_loop : forall body str pass lim rest,
  Forall (fun c => c <> lf /\ is_ascii c = true) body ->
  wlex (body ++ lf :: rest) str pass lim true = wlex (lf :: rest) str (pass + length body) lim true.
Proof.
  induction body as [|c body IH]; intros str pass lim rest F; [cbn [app length]; rewrite Nat.add_0_r; reflexivity|].
  inversion F as [|? ? [F1 F2] F3]; subst. cbn [app].
  assert (E : forall t, wlex (c :: t) str pass lim true = wlex t str (S pass) lim true).
  { intro t. cbn [wlex]. apply Ascii.eqb_neq in F1. rewrite F1. cbn [negb andb].
    assert (is_cont c = false) as ->; [|reflexivity].
    revert F2. clear. destruct c as [[] [] [] [] [] [] [] []]; vm_compute; congruence. }
  rewrite E, IH by assumption. cbn [length]. f_equal. lia.
Qed.

Lemma lex_gap : forall g, gap g -> forall rest pass lim, wlex (g ++ rest) [] pass lim false = wlex rest [] (pass + length g) lim false.
Proof.
  intros g G. induction G as [|c g C G IH|body g F G IH]; intros rest pass lim.
  - cbn [app length]. rewrite Nat.add_0_r. reflexivity.
  - assert (E : forall t, wlex (c :: t) [] pass lim false = wlex t [] (S pass) lim false).
    { intro t.
      assert (X : Ascii.eqb c "#" = false /\ is_ascii c = true /\ is_digit c = false /\ is_wbreak c = false).
      { revert C. clear. destruct c as [[] [] [] [] [] [] [] []]; vm_compute; intuition congruence. }
      destruct X as (X1 & X2 & X3 & X4). cbn [wlex andb]. rewrite X1. cbv zeta. rewrite X2, X3, X4, C. reflexivity. }
    cbn [app]. rewrite E, IH. cbn [length]. f_equal. lia.
  - cbn [app]. rewrite <- app_assoc. cbn [app].
    change (wlex ("#"%char :: body ++ lf :: g ++ rest) [] pass lim false)
      with (wlex (body ++ lf :: g ++ rest) [] (S pass) lim true).
    rewrite comment_loop by assumption.
    change (wlex (lf :: g ++ rest) [] (S pass + length body) lim true)
      with (wlex (g ++ rest) [] (S (S pass + length body)) lim false).
    rewrite IH. cbn [length]. rewrite app_length. cbn [length]. f_equal. lia.
Qed.

Lemma word_char_wbreak : forall c, word_char c = true ->
  is_ascii c = true /\ is_ws c = false /\ is_wbreak c = false /\ Ascii.eqb c "#" = false.
Proof. intros [[] [] [] [] [] [] [] []]; vm_compute; intro H; repeat split; congruence. Qed.

Lemma wlex_word_loop : forall w str pass lim rest, str <> [] -> Forall (fun c => word_char c = true) w ->
  exists lim', wlex (w ++ rest) str pass lim false = wlex rest (str ++ w) (pass + length w) lim' false.
Proof.
  induction w as [|c w IH]; intros str pass lim rest N F.
  - exists lim. cbn [app length]. rewrite app_nil_r, Nat.add_0_r. reflexivity.
  - inversion F as [|? ? F1 F2]; subst. destruct (word_char_wbreak c F1) as (W1 & W2 & W3 & W4).
    destruct (IH (str ++ [c]) (S pass) (lim || Ascii.eqb c "@" || Ascii.eqb c "&") rest) as (lim' & E);
      [destruct str; discriminate | exact F2 |].
    exists lim'. cbn [app wlex andb]. rewrite W4. cbv zeta. rewrite W1, W2, W3. cbn [negb andb orb].
    destruct str as [|x str]; [congruence|]. rewrite andb_false_r.
    assert (negb (is_alnum c) && negb (Ascii.eqb c "_") = false) as ->.
    { unfold word_char in F1. destruct (is_alnum c), (Ascii.eqb c "_"); auto. }
    cbn [andb]. rewrite E, <- app_assoc. cbn [app length]. f_equal. lia.
Qed.

Lemma wident_placed : forall w, wident w -> misplaced "&" w || misplaced "@" w = false.
Proof.
  intros [|c r] H; [reflexivity|]. destruct H as (_ & H & F).
  assert (K : forall x, x = "@"%char \/ x = "&"%char -> existsb (Ascii.eqb x) r = false).
  { intros x X. destruct (existsb (Ascii.eqb x) r) eqn:E; [|reflexivity]. apply existsb_exists in E as (y & Y1 & Y2).
    apply Ascii.eqb_eq in Y2. subst y. rewrite Forall_forall in F. specialize (F _ Y1). destruct X; subst; discriminate. }
  unfold misplaced. cbn [existsb]. rewrite !K by auto. rewrite !orb_false_r.
  rewrite (Ascii.eqb_sym "&" c), (Ascii.eqb_sym "@" c).
  destruct (Ascii.eqb c "&"), (Ascii.eqb c "@"); reflexivity.
Qed.

(** what follows a word, once its token has been read *)
Lemma lex_word_end : forall w pass lim ks rest, w <> [] -> misplaced "&" w || misplaced "@" w = false ->
  apart rest -> wlayout ks rest ->
  exists n rest', wlex rest w pass lim false = Ok (WWord w (pass + n)) /\ skipn n rest = rest' /\
    wlayout ks rest' /\ match rest' with c :: _ => is_cont c = false | [] => True end.
Proof.
  intros w pass lim ks rest N M A L. destruct rest as [|c rest]; [destruct A|]. cbn [apart] in A.
  assert (E : forall c' r p, ender c' = true -> wlex (c' :: r) w p lim false = Ok (WWord w p) /\
                wlex (c' :: r) w p lim true = (if Ascii.eqb c' lf then Ok (WWord w p) else wlex r w (S p) lim true)).
  { intros c' r p C'.
    assert (X : wlex (c' :: r) w p lim false = Ok (WWord w p)).
    { assert (X0 : is_ascii c' = true /\ Ascii.eqb c' "#" = false).
      { revert C'. clear. destruct c' as [[] [] [] [] [] [] [] []]; vm_compute; intuition congruence. }
      destruct X0 as [X1 X2]. cbn [wlex andb]. rewrite X2. cbv zeta. rewrite X1. cbn [negb].
      destruct w as [|x w]; [congruence|]. rewrite !andb_false_r. unfold ender in C'. rewrite C', M, andb_false_r.
      rewrite Nat.sub_succ, Nat.sub_0_r. reflexivity. }
    split; [exact X|]. cbn [wlex andb]. destruct (Ascii.eqb c' lf) eqn:Z; cbn [negb].
    - cbn [wlex andb] in X. exact X.
    - assert (is_cont c' = false) as ->; [|reflexivity].
      revert C'. clear. destruct c' as [[] [] [] [] [] [] [] []]; vm_compute; congruence. }
  destruct A as [A | ->].
  - exists 0, (c :: rest). rewrite Nat.add_0_r. split; [apply E; exact A|]. split; [reflexivity|]. split; [exact L|].
    revert A. clear. destruct c as [[] [] [] [] [] [] [] []]; vm_compute; congruence.
  - (* a comment follows: the next text starts with its end of line *)
    assert (D : exists body more, rest = body ++ lf :: more /\
              Forall (fun c => c <> lf /\ is_ascii c = true) body /\ wlayout ks (lf :: more)).
    { assert (GP : forall g more, gap g -> (g ++ more)%list = "#"%char :: rest -> g <> [] ->
                exists body g', rest = body ++ lf :: g' ++ more /\ gap g' /\
                  Forall (fun c => c <> lf /\ is_ascii c = true) body).
      { intros g more G EQ NE. destruct G as [|c g C G|body g F G].
        - congruence.
        - cbn [app] in EQ. injection EQ as -> _. vm_compute in C. discriminate.
        - cbn [app] in EQ. injection EQ as EQ. exists body, g. rewrite <- EQ, <- app_assoc. auto. }
      assert (LF : is_ws lf = true) by reflexivity.
      inversion L as [g G EG EQ | g w' ks' rest' G W AP L' EK EQ | g c' ks' rest' G B L' EK EQ]; subst.
      - destruct (GP ("#"%char :: rest) [] G) as (body & g' & E1 & E2 & E3); [apply app_nil_r | discriminate |].
        rewrite app_nil_r in E1. exists body, g'. split; [exact E1|]. split; [exact E3|].
        apply WL_end. constructor; assumption.
      - destruct g as [|x g].
        { cbn [app] in EQ. destruct w' as [|y w']; [destruct W|]. cbn [app] in EQ. injection EQ as -> _.
          destruct W as (_ & W & _). destruct W as [W | [W | W]]; discriminate. }
        destruct (GP _ _ G EQ) as (body & g' & E1 & E2 & E3); [discriminate|].
        exists body, (g' ++ w' ++ rest'). split; [exact E1|]. split; [exact E3|].
        apply (WL_word (lf :: g')); auto. constructor; assumption.
      - destruct g as [|x g].
        { cbn [app] in EQ. injection EQ as -> _. discriminate. }
        destruct (GP _ _ G EQ) as (body & g' & E1 & E2 & E3); [discriminate|].
        exists body, (g' ++ c' :: rest'). split; [exact E1|]. split; [exact E3|].
        apply (WL_sym (lf :: g')); auto. constructor; assumption. }
    destruct D as (body & more & -> & F & L'). exists (S (length body)), (lf :: more).
    split; [|split; [|split; [exact L' | reflexivity]]].
    + change (wlex ("#"%char :: body ++ lf :: more) w pass lim false)
        with (wlex (body ++ lf :: more) w (S pass) lim true).
      rewrite comment_loop by exact F. destruct (E lf more (S pass + length body) eq_refl) as [_ X].
      rewrite X. change (Ascii.eqb lf lf) with true. cbv iota. do 2 f_equal. lia.
    + cbn [skipn]. rewrite skipn_app, skipn_all, Nat.sub_diag. reflexivity.
Qed.

Lemma slice_some : forall t n rest, skipn n t = rest ->
  match rest with c :: _ => is_cont c = false | [] => True end -> slice t n = Some rest.
Proof. intros t n rest E C. unfold slice. rewrite E. destruct rest as [|c r]; [reflexivity|]. rewrite C. reflexivity. Qed.

Lemma layout_start : forall ks t, wlayout ks t -> match t with c :: _ => is_cont c = false | [] => True end.
Proof.
  assert (GS : forall g (t : text), gap g -> match t with c :: _ => is_cont c = false | [] => True end ->
            match (g ++ t)%list with c :: _ => is_cont c = false | [] => True end).
  { intros g t G T. destruct G as [|c g C G|body g F G]; cbn [app]; auto.
    revert C. clear. destruct c as [[] [] [] [] [] [] [] []]; vm_compute; congruence. }
  intros ks t L. destruct L as [g G|g w ks rest G W A L|g c ks rest G B L].
  - rewrite <- (app_nil_r g). apply GS; [exact G | exact I].
  - apply GS; [exact G|]. destruct w as [|c w]; [destruct W|]. cbn [app]. destruct W as (_ & W & _).
    destruct W as [W | [-> | ->]]; [|reflexivity|reflexivity].
    revert W. clear. destruct c as [[] [] [] [] [] [] [] []]; vm_compute; congruence.
  - apply GS; [exact G|]. revert B. clear. destruct c as [[] [] [] [] [] [] [] []]; vm_compute; congruence.
Qed.

Lemma wlay_word : forall w ks t, wlayout (KWd w :: ks) t -> exists off rest,
  wlex t [] 0 false false = Ok (WWord w off) /\ 1 <= off /\ slice t off = Some rest /\ wlayout ks rest.
Proof.
  intros w ks t L. inversion L as [|g w' ks' rest G W A L'|]; subst.
  destruct w as [|c w]; [destruct W|]. pose proof W as (D & C & F).
  assert (HD : forall r p, exists lim, wlex (c :: r) [] p false false = wlex r [c] (S p) lim false).
  { intros r p. cbn [wlex andb].
    assert (X : Ascii.eqb c "#" = false /\ is_ascii c = true /\ is_ws c = false /\ is_wbreak c = false /\
                (negb (is_alnum c) && negb (Ascii.eqb c "_") && negb (false || Ascii.eqb c "@" || Ascii.eqb c "&") = false)).
    { destruct C as [C | [-> | ->]]; [|repeat split; reflexivity|repeat split; reflexivity].
      destruct (word_char_wbreak c C) as (X1 & X2 & X3 & X4). repeat split; auto.
      unfold word_char in C. destruct (is_alnum c), (Ascii.eqb c "_"); auto; discriminate. }
    destruct X as (X1 & X2 & X3 & X4 & X5). rewrite X1. cbv zeta. rewrite X2, D, X3, X4. cbn [negb andb orb] in *.
    rewrite X5. eexists. reflexivity. }
  destruct (HD (w ++ rest) (length g)) as (lim & E1).
  destruct (wlex_word_loop w [c] (S (length g)) lim rest) as (lim' & E2); [discriminate | exact F |].
  destruct (lex_word_end (c :: w) (S (length g) + length w) lim' ks rest) as (n & rest' & E3 & E4 & E5 & E6);
    [discriminate | apply wident_placed; exact W | exact A | exact L' |].
  exists (S (length g) + length w + n), rest'. split; [|split; [lia|split; [|exact E5]]].
  - rewrite (lex_gap g G). cbn [app Nat.add]. rewrite E1, E2. cbn [app]. exact E3.
  - apply slice_some; [|exact E6].
    change ((c :: w) ++ rest)%list with ((c :: w) ++ rest)%list. rewrite app_assoc, skipn_app.
    rewrite skipn_all2 by (rewrite app_length; cbn [length]; lia). cbn [app].
    rewrite app_length. cbn [length]. replace (S (length g) + length w + n - (length g + S (length w))) with n by lia.
    exact E4.
Qed.

Lemma wlay_sym : forall c ks t, wlayout (KSym c :: ks) t -> exists off rest,
  wlex t [] 0 false false = Ok (symbol c off) /\ 1 <= off /\ slice t off = Some rest /\ wlayout ks rest.
Proof.
  intros c ks t L. inversion L as [| |g c' ks' rest G B L']; subst.
  exists (S (length g)), rest. split; [|split; [lia|split; [|exact L']]].
  - rewrite (lex_gap g G). cbn [Nat.add wlex andb].
    assert (X : Ascii.eqb c "#" = false /\ is_ascii c = true /\ is_digit c = false /\ is_ws c = false).
    { revert B. clear. destruct c as [[] [] [] [] [] [] [] []]; vm_compute; intuition congruence. }
    destruct X as (X1 & X2 & X3 & X4). rewrite X1. cbv zeta. rewrite X2, X3, X4, B. reflexivity.
  - apply slice_some; [|exact (layout_start _ _ L')].
    rewrite skipn_app, skipn_all2 by lia. replace (S (length g) - length g) with 1 by lia. reflexivity.
Qed.

Lemma wlay_end : forall t, wlayout [] t -> wlex t [] 0 false false = Ok WEnd.
Proof.
  intros t L. inversion L as [g G| |]; subst. rewrite <- (app_nil_r t), (lex_gap t G). reflexivity.
Qed.

(** ** Running on tokens *)

Definition ktok (k : wk) : wtok := match k with KWd w => WWord w 1 | KSym c => symbol c 1 end.

Fixpoint krun (ks : list wk) (o : option entity_open) (s : wstore) (p : store)
  : res (option entity_open * wstore * store) werr :=
  match ks with
  | [] => Ok (o, s, p)
  | k :: ks =>
    do a <- wstep o (ktok k) s p;
    let '(o, s, p) := a in krun ks o s p
  end.

Lemma krun_app : forall ks ks' o s p, krun (ks ++ ks') o s p =
  (do a <- krun ks o s p; let '(o, s, p) := a in krun ks' o s p).
Proof.
  induction ks as [|k ks IH]; intros ks' o s p; [reflexivity|]. cbn [app krun].
  destruct (wstep o (ktok k) s p) as [[[o1 s1] p1]|e|]; cbn [bind]; [apply IH | reflexivity | reflexivity].
Qed.

(** the parser does not look at offsets, as long as they are not 0 *)
Lemma entity_next_offset : forall e p w n m, entity_next e (WWord w n) p = entity_next e (WWord w m) p.
Proof. intros [c|r|b|v] p w n m; reflexivity. Qed.
Lemma entity_next_symbol : forall e p c n m, entity_next e (symbol c n) p = entity_next e (symbol c m) p.
Proof.
  intros e p c n m. unfold symbol.
  repeat (match goal with |- context [if ?b then _ else _] => destruct b end); destruct e; reflexivity.
Qed.

Lemma wstep_word : forall o w n s p, 1 <= n -> wstep o (WWord w n) s p = wstep o (WWord w 1) s p.
Proof.
  intros [e|] w n s p N; cbn [wstep].
  - unfold feed. rewrite (entity_next_offset e p w n 1). reflexivity.
  - destruct (open_entity w) as [e|]; [|reflexivity]. destruct (n =? 0) eqn:Z; [apply Nat.eqb_eq in Z; lia | reflexivity].
Qed.
Lemma wstep_symbol : forall o c n s p, wstep o (symbol c n) s p = wstep o (symbol c 1) s p.
Proof.
  intros [e|] c n s p; cbn [wstep].
  - unfold feed. rewrite (entity_next_symbol e p c n 1). reflexivity.
  - unfold symbol. repeat (match goal with |- context [if ?b then _ else _] => destruct b end); reflexivity.
Qed.

Lemma wrun_step : forall fuel t o s p k off rest,
  wlex t [] 0 false false = Ok k -> k <> WEnd -> woffset k = off -> slice t off = Some rest ->
  wrun (S fuel) t o s p =
  match wstep o k s p with Ok (o, s, p) => wrun fuel rest o s p | _ => WRejected end.
Proof.
  intros fuel t o s p k off rest E N O S. cbn [wrun]. rewrite E.
  destruct k; cbn [woffset] in O |- *; subst; try rewrite S; try congruence;
    (destruct (wstep o _ s p) as [[[o1 s1] p1]|e|]; reflexivity).
Qed.

(** every layout of the tokens is parsed like the tokens *)
Lemma wrun_layout : forall ks t, wlayout ks t -> forall fuel o s p, length ks < fuel ->
  wrun fuel t o s p =
  match krun ks o s p with
  | Ok (_, s, p) =>
    match validate (w_requests s) (w_beacons s) with Ok _ => WAccepted s p | _ => WRejected end
  | _ => WRejected
  end.
Proof.
  induction ks as [|k ks IH]; intros t L fuel o s p F; (destruct fuel as [|fuel]; [cbn [length] in F; lia|]).
  - cbn [wrun krun]. rewrite (wlay_end _ L). reflexivity.
  - cbn [length] in F. destruct k as [w|c].
    + destruct (wlay_word _ _ _ L) as (off & rest & E1 & E2 & E3 & E4).
      rewrite (wrun_step fuel t o s p _ off rest E1) by (discriminate || reflexivity || exact E3).
      rewrite (wstep_word o w off s p E2). cbn [krun ktok].
      destruct (wstep o (WWord w 1) s p) as [[[o1 s1] p1]|e|]; cbn [bind]; try reflexivity.
      apply IH; [exact E4 | lia].
    + destruct (wlay_sym _ _ _ L) as (off & rest & E1 & E2 & E3 & E4).
      rewrite (wrun_step fuel t o s p _ off rest E1) by (apply symbol_not_end || apply symbol_offset || exact E3).
      rewrite (wstep_symbol o c off s p). cbn [krun ktok].
      destruct (wstep o (symbol c 1) s p) as [[[o1 s1] p1]|e|]; cbn [bind]; try reflexivity.
      apply IH; [exact E4 | lia].
Qed.
