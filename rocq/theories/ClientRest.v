(** A generated TypeScript consumer left to itself: each of its own steps brings it
    nearer to rest, and a consumer that is not at rest has such a step (C104, C105). *)
From Coq Require Import List NArith Arith Bool Lia.
From Verif Require Import Bytes WireModel FrameModel FrameProofs TsModel TsReader TsClientModel TsClientProofs TsClientTrace.
From Verif Require TsSystemModel TsSystemProofs PropTsClient.
Import ListNotations.
Open Scope N_scope.

(** ** Orders *)
Definition lex {A B} (R : A -> A -> Prop) (S : B -> B -> Prop) (x y : A * B) : Prop :=
  R (fst x) (fst y) \/ fst x = fst y /\ S (snd x) (snd y).
Lemma lex_wf {A B} (R : A -> A -> Prop) (S : B -> B -> Prop) : well_founded R -> well_founded S -> well_founded (lex R S).
Proof.
  intros WR WS (a & b). revert b. induction (WR a) as [a _ IA]. intro b. induction (WS b) as [b _ IB].
  constructor. intros (a' & b') [H|(H & H')]; cbn [fst snd] in *.
  - apply IA. exact H.
  - subst a'. apply IB. exact H'.
Qed.
Lemma le_lex {B} (S : B -> B -> Prop) n m (x y : B) : (n <= m)%nat -> S x y -> lex lt S (n, x) (m, y).
Proof. intros H HS. destruct (Nat.eq_dec n m) as [->|NE]; [right; auto|left; cbn [fst]; lia]. Qed.

(** Nothing goes on for ever. *)
Lemma no_chain {A} (R : A -> A -> Prop) x : Acc R x -> forall f : nat -> A, f O = x -> ~ (forall i, R (f (S i)) (f i)).
Proof.
  induction 1 as [x _ IH]. intros f E H. apply (IH (f 1%nat)) with (f := fun i => f (S i)); [rewrite <- E; apply H|reflexivity|].
  intro i. apply H.
Qed.

Section Rest.
Variable E : tenv.
Local Notation M := (t_msg E).
Local Notation tst := (tst M).
Local Notation tev := (tev M).

(** The steps that nobody outside makes: the loop over the queue and continuations. *)
Definition automatic (l : label) : Prop :=
  match l with LNext | LRun _ | LHash _ _ _ => True | _ => False end.

Definition ids (t : list tev) : list nat := flat_map (fun e => match e with VCall a _ => [a] | _ => [] end) t.
Definition open_of (x : option (what * stage M)) : nat :=
  match x with Some (WAssign true, TDone) => 0 | Some (WAssign true, _) => 1 | _ => 0 end.
Definition got_of (x : option (what * stage M)) : nat := match x with Some (_, TGot _ _) => 1 | _ => 0 end.
Definition total (f : option (what * stage M) -> nat) (s : tst) (l : list nat) : nat := list_sum (map (fun a => f (c_act s a)) l).
Definition todo (s : tst) : nat := (length (rb_queue (c_buf s)) + if c_drain s then 1 else 0)%nat.

Lemma ids_app x y : ids (x ++ y) = ids x ++ ids y.
Proof. apply flat_map_app. Qed.
Lemma total_app f s x y : total f s (x ++ y) = (total f s x + total f s y)%nat.
Proof. unfold total. rewrite map_app, list_sum_app. reflexivity. Qed.
Lemma total_le f (s s' : tst) l : (forall a, In a l -> (f (c_act s' a) <= f (c_act s a))%nat) -> (total f s' l <= total f s l)%nat.
Proof.
  induction l as [|a l IH]; intro H; [apply le_n|]. unfold total in *. cbn [map list_sum fold_right].
  pose proof (H a (or_introl eq_refl)). specialize (IH (fun b J => H b (or_intror J))). unfold list_sum in *. cbn [fold_right]. lia.
Qed.
Lemma total_lt f (s s' : tst) l a : (forall b, In b l -> (f (c_act s' b) <= f (c_act s b))%nat) -> In a l -> (f (c_act s' a) < f (c_act s a))%nat ->
  (total f s' l < total f s l)%nat.
Proof.
  induction l as [|b l IH]; intros H J L; [elim J|]. pose proof (H b (or_introl eq_refl)) as HB.
  pose proof (total_le f s s' l (fun c K => H c (or_intror K))) as HL.
  unfold total in *. cbn [map]. unfold list_sum in *. cbn [fold_right].
  destruct J as [->|J]; [lia|]. specialize (IH (fun c K => H c (or_intror K)) J L). lia.
Qed.

Lemma known (s : tst) tr a w g : inv E s tr -> c_act s a = Some (w, g) -> In (VCall a w) tr.
Proof.
  intros I C. pose proof (i_shape E _ _ I a) as SH. rewrite C in SH.
  assert (LI : forall x, In x (life E a tr) -> In x tr) by (intros x Z; apply filter_In in Z; tauto).
  apply LI. destruct g as [k|k m|v|]; cbn [shape] in SH.
  - rewrite SH. left. reflexivity.
  - rewrite SH. left. reflexivity.
  - destruct SH as (k & m & _ & _ & SH). rewrite SH. left. reflexivity.
  - destruct SH as [(ob & e & _ & _ & S)|[(k & r & e & _ & _ & S)|(k & m & r & _ & S)]]; rewrite S; left; reflexivity.
Qed.
Lemma known_id (s : tst) tr a w g : inv E s tr -> c_act s a = Some (w, g) -> In a (ids tr).
Proof. intros I C. apply in_flat_map. exists (VCall a w). split; [exact (known _ _ _ _ _ I C)|left; reflexivity]. Qed.

(** ** Each step brings it nearer *)
Definition rank (s : tst) (tr : list tev) : nat * nat := (todo s, total got_of s (ids tr)).

Lemma upd_act (s : tst) a w g b : c_act (set_act s a w g) b = if Nat.eqb b a then Some (w, g) else c_act s b.
Proof. reflexivity. Qed.

Lemma nearer (s s' : tst) tr l es : inv E s tr -> automatic l -> fire E s l = Some (s', es) ->
  (total open_of s' (ids (tr ++ es)) < total open_of s (ids tr))%nat \/
  (total open_of s' (ids (tr ++ es)) <= total open_of s (ids tr))%nat /\ TsSystemModel.sent_up E es = [] /\ lex lt lt (rank s' (tr ++ es)) (rank s tr).
Proof.
  intros I AU F. destruct l as [| | | | | | | |a|a b r]; try (elim AU; fail); cbn [fire] in F.
  - right. destruct (c_drain s) eqn:D; [|discriminate F].
    destruct (rb_queue (c_buf s)) as [|[h m] q] eqn:Q.
    + injection F as <- <-. rewrite app_nil_r. split; [apply le_n|]. split; [reflexivity|]. left. cbn [rank fst todo set_buf c_buf c_drain]. unfold todo.
      cbn [set_buf c_buf c_drain]. rewrite D. lia.
    + cbn [set_buf c_pend c_act] in F.
      assert (X : c_buf s' = mkBuf (rb_buf (c_buf s)) q /\ c_drain s' = true /\ ids es = [] /\ TsSystemModel.sent_up E es = [] /\
                forall b, (open_of (c_act s' b) <= open_of (c_act s b))%nat).
      { destruct (c_pend s (h_seq h)) as [a|] eqn:CP.
        - destruct (i_pend E _ _ I _ _ CP) as (_ & w & W). rewrite W in F. injection F as <- <-.
          split; [reflexivity|]. split; [reflexivity|]. split; [reflexivity|]. split; [reflexivity|]. intro b. cbn [set_act c_act set_pend set_buf]. unfold upd.
          destruct (Nat.eqb_spec b a) as [->|]; [|apply le_n]. rewrite W. destruct w as [[]| | |]; cbn; lia.
        - destruct (t_broadcast E m); injection F as <- <-; (split; [reflexivity|]); (split; [reflexivity|]); (split; [reflexivity|]); (split; [reflexivity|]); intro b; apply le_n. }
      destruct X as (X1 & X2 & X3 & X4 & X5). rewrite ids_app, X3, app_nil_r. split; [apply total_le; auto|]. split; [exact X4|].
      left. unfold rank, todo. cbn [fst]. rewrite X1, X2, D, Q. cbn [rb_queue length]. lia.
  - right. destruct (c_drain s) eqn:D; [discriminate F|].
    destruct (c_act s a) as [[w [|n m| |]]|] eqn:A; try discriminate F. injection F as F.
    assert (X : c_buf s' = c_buf s /\ c_drain s' = c_drain s /\ (exists g, c_act s' = upd (c_act s) a (Some (w, g)) /\ (forall k x, g <> TGot k x)) /\
              ids es = [] /\ TsSystemModel.sent_up E es = []).
    { unfold resume in F. destruct w as [auto|v|q k|b k].
      - destruct (t_self E m); [destruct (c_uuid _)|]; injection F as <- <-; cbn; repeat (split; [reflexivity|]);
          (split; [|split; reflexivity]); eexists; (split; [reflexivity|]); intros; try destruct auto; discriminate.
      - destruct (t_hash E m) as [[?|]|]; injection F as <- <-; cbn; repeat (split; [reflexivity|]);
          (split; [|split; reflexivity]); eexists; (split; [reflexivity|]); intros; discriminate.
      - destruct (c_obj s k); injection F as <- <-; cbn; repeat (split; [reflexivity|]);
          (split; [|split; reflexivity]); eexists; (split; [reflexivity|]); intros; discriminate.
      - destruct (c_obj s k); injection F as <- <-; cbn; repeat (split; [reflexivity|]);
          (split; [|split; reflexivity]); eexists; (split; [reflexivity|]); intros; discriminate. }
    destruct X as (X1 & X2 & (g & X3 & XG) & X4 & X5). rewrite ids_app, X4, app_nil_r.
    split.
    { apply total_le. intros b _. rewrite X3. unfold upd. destruct (Nat.eqb_spec b a) as [->|]; [|apply le_n]. rewrite A. destruct w as [[]| | |]; destruct g; cbn; lia. }
    split; [exact X5|]. right. unfold rank, todo. cbn [fst snd]. rewrite X1, X2. split; [reflexivity|].
    rewrite ids_app, X4, app_nil_r. apply (total_lt _ _ _ _ a).
    + intros b _. rewrite X3. unfold upd. destruct (Nat.eqb_spec b a) as [->|]; [|apply le_n]. rewrite A. destruct g; cbn; lia.
    + exact (known_id _ _ _ _ _ I A).
    + rewrite X3, A. unfold upd. rewrite Nat.eqb_refl. destruct g as [| k x| |]; cbn; try lia. elim (XG k x eq_refl).
  - left. destruct (c_drain s) eqn:D; [discriminate F|].
    destruct (c_act s a) as [[w [| |v|]]|] eqn:A; try discriminate F.
    pose proof (i_shape E _ _ I a) as SH. rewrite A in SH. destruct SH as (n & m & -> & _).
    assert (AB : b <> a).
    { intros ->. unfold begin in F. rewrite upd_act, Nat.eqb_refl in F. discriminate F. }
    assert (X : ids es = [b] /\ exists g, forall k, c_act s' k = if Nat.eqb k b then Some (WHash v, g) else c_act (set_act s a (WAssign true) TDone) k).
    { unfold begin in F. rewrite upd_act in F. destruct (Nat.eqb_spec b a) as [|_]; [contradiction|]. destruct (c_act s b); [discriminate F|].
      destruct r; try destruct (2 ^ 32 <=? c_seq _); try discriminate F; try destruct (c_pend _ _); try discriminate F; injection F as <- <-;
        (split; [reflexivity|]); eexists; intro k; reflexivity. }
    destruct X as (X1 & g & X2). rewrite ids_app, X1, total_app.
    assert (Z : total open_of s' [b] = 0%nat). { unfold total. cbn [map]. rewrite X2, Nat.eqb_refl. reflexivity. }
    rewrite Z, Nat.add_0_r. apply (total_lt _ _ _ _ a).
    + intros k _. rewrite X2. destruct (Nat.eqb_spec k b) as [->|]; [cbn; lia|]. rewrite upd_act. destruct (Nat.eqb_spec k a) as [->|]; [cbn; lia|apply le_n].
    + exact (known_id _ _ _ _ _ I A).
    + rewrite X2. destruct (Nat.eqb_spec a b) as [->|_]; [contradiction|]. rewrite upd_act, Nat.eqb_refl, A. cbn. lia.
Qed.

(** ** There is a step *)
Definition pending_of (x : option (what * stage M)) : bool := match x with Some (_, TGot _ _) | Some (_, THash _) => true | _ => false end.

Lemma unused_id (s : tst) tr : inv E s tr -> exists b, c_act s b = None.
Proof.
  intro I. exists (S (list_max (ids tr))). destruct (c_act s (S (list_max (ids tr)))) as [[w g]|] eqn:C; [|reflexivity].
  pose proof (known_id _ _ _ _ _ I C) as J.
  pose proof (proj1 (list_max_le (ids tr) (list_max (ids tr))) (le_n _)) as L. rewrite Forall_forall in L. apply L in J. lia.
Qed.

Lemma steps (s : tst) tr : inv E s tr -> PropTsClient.at_rest E s \/
  exists l s' es, automatic l /\ fire E s l = Some (s', es) /\ TsSystemModel.sent_up E es = [].
Proof.
  intro I. destruct (c_drain s) eqn:D.
  - right. exists LNext. cbn [fire]. rewrite D. destruct (rb_queue (c_buf s)) as [|[h m] q].
    + eexists _, _. split; [exact Logic.I|]. split; reflexivity.
    + cbn [set_buf c_pend c_act]. destruct (c_pend s (h_seq h)) as [a|] eqn:CP.
      * destruct (i_pend E _ _ I _ _ CP) as (_ & w & W). rewrite W. eexists _, _. split; [exact Logic.I|]. split; reflexivity.
      * destruct (t_broadcast E m); eexists _, _; (split; [exact Logic.I|]); split; reflexivity.
  - destruct (existsb (fun a => pending_of (c_act s a)) (ids tr)) eqn:X.
    + right. apply existsb_exists in X as (a & _ & P). destruct (c_act s a) as [[w [n|n m|v|]]|] eqn:A; try discriminate P.
      * exists (LRun a). cbn [fire]. rewrite D, A. destruct (resume E s a w m) as (s' & es) eqn:R. exists s', es. split; [exact Logic.I|]. split; [reflexivity|].
        destruct (resume_emits E _ _ _ _ _ _ R) as [->|[(r & ->)|(u & _ & _ & ->)]]; reflexivity.
      * destruct (unused_id _ _ I) as (b & B). exists (LHash a b SThrow). cbn [fire]. rewrite D, A. unfold begin. rewrite upd_act.
        destruct (Nat.eqb_spec b a) as [->|]; [congruence|]. rewrite B. eexists _, _. split; [exact Logic.I|]. split; reflexivity.
    + left. split; [exact D|]. intro a. destruct (c_act s a) as [[w [n|n m|v|]]|] eqn:A; try exact Logic.I;
        (assert (Y : existsb (fun a => pending_of (c_act s a)) (ids tr) = true); [|congruence]); apply existsb_exists; exists a;
        (split; [exact (known_id _ _ _ _ _ I A)|rewrite A; reflexivity]).
Qed.

(** Bytes of packets it understands can be read. *)
Lemma readable ls (s : tst) tr ps rest : trun E ls s tr -> c_drain s = false ->
  Forall packet_ok ps -> Forall (quiet (t_get E) (t_sig E)) ps -> concat (chunks E tr) ++ rest = stream ps -> blen (stream ps) < 2 ^ 64 ->
  exists fuel s' es, fire E s (LData rest fuel) = Some (s', es) /\ TsSystemModel.sent_up E es = [].
Proof.
  intros R D PO QU EQ L. destruct (trun_feeds E _ _ _ R) as (F & _).
  destruct (stream_prefix (t_get E) (t_sig E) ps (concat (chunks E tr)) rest [] PO TsSystemProofs.no_packet_nil) as (j & x & E1 & E2 & NP); [rewrite app_nil_r; exact EQ|].
  rewrite app_nil_r in E2.
  assert (SP : forall P, Forall P ps -> Forall P (firstn j ps) /\ Forall P (skipn j ps)).
  { intros P W. rewrite <- (firstn_skipn j ps) in W. apply Forall_app in W. exact W. }
  destruct (ts_feed_all (t_get E) (t_sig E) (chunks E tr) (firstn j ps) x (mkBuf [] [])) as (ns & G & S).
  { apply SP, PO. } { apply SP, QU. } { exact NP. } { rewrite <- E1. rewrite <- EQ, blen_app in L. lia. } { exists []. split; [reflexivity|exact TsSystemProofs.no_packet_nil]. } { exact E1. }
  destruct (ts_feeds_fun _ _ _ _ _ _ F _ _ G) as (_ & Q). injection Q as Q _.
  destruct (ts_chunk_done (t_get E) (t_sig E) (c_buf s) rest (skipn j ps) []) as (fuel & T).
  { apply SP, PO. } { apply SP, QU. } { exact TsSystemProofs.no_packet_nil. } { reflexivity. } { rewrite Q, app_nil_r. exact E2. }
  exists fuel. cbn [fire]. rewrite D, T. eexists _, _. split; reflexivity.
Qed.
End Rest.
