(** UTF-8: an independent encoder (specification) and a model of
    [String::from_utf8_lossy] (Rust standard library, used in
    cli/src/protocol/render/rust/static/protocol.decode.rs l.298 and l.582). *)
From Coq Require Import List NArith ZArith Lia Bool ZifyN.
From Verif Require Import Bytes.
Import ListNotations.
Open Scope N_scope.

(** ** Specification *)

(** Unicode scalar values (what a Rust [char] can be). *)
Definition scalar (c : N) : Prop := c < 55296 \/ (57344 <= c /\ c < 1114112).

(** UTF-8 encoding of one scalar value (RFC 3629). *)
Definition utf8_enc (c : N) : bytes :=
  if c <? 128 then [n2b c]
  else if c <? 2048 then [n2b (192 + c / 64); n2b (128 + c mod 64)]
  else if c <? 65536 then
    [n2b (224 + c / 4096); n2b (128 + (c / 64) mod 64); n2b (128 + c mod 64)]
  else
    [n2b (240 + c / 262144); n2b (128 + (c / 4096) mod 64);
     n2b (128 + (c / 64) mod 64); n2b (128 + c mod 64)].

Definition utf8 (cs : list N) : bytes := flat_map utf8_enc cs.

(** The invariant of a Rust [String]. *)
Definition valid_utf8 (s : bytes) : Prop :=
  exists cs, Forall scalar cs /\ s = utf8 cs.

(** ** Model of [from_utf8_lossy] (core::str::lossy, [Utf8Chunks::next]) *)

Definition in_range (lo hi n : N) : bool := (lo <=? n) && (n <=? hi).
Definition cont (b : byte) : bool := in_range 128 191 (b2n b).

(** allowed second byte of a three byte sequence *)
Definition second3 (n0 : N) (b1 : byte) : bool :=
  let n1 := b2n b1 in
  if n0 =? 224 then in_range 160 191 n1
  else if n0 =? 237 then in_range 128 159 n1
  else in_range 128 191 n1.

(** allowed second byte of a four byte sequence *)
Definition second4 (n0 : N) (b1 : byte) : bool :=
  let n1 := b2n b1 in
  if n0 =? 240 then in_range 144 191 n1
  else if n0 =? 244 then in_range 128 143 n1
  else in_range 128 191 n1.

(** U+FFFD, the replacement character *)
Definition repl : bytes := utf8_enc 65533.

Fixpoint lossy (bs : bytes) : bytes :=
  match bs with
  | [] => []
  | b0 :: r0 =>
    let n0 := b2n b0 in
    if n0 <? 128 then b0 :: lossy r0
    else if in_range 194 223 n0 then
      match r0 with
      | b1 :: r1 => if cont b1 then b0 :: b1 :: lossy r1 else repl ++ lossy r0
      | [] => repl
      end
    else if in_range 224 239 n0 then
      match r0 with
      | b1 :: r1 =>
        if second3 n0 b1 then
          match r1 with
          | b2 :: r2 =>
            if cont b2 then b0 :: b1 :: b2 :: lossy r2 else repl ++ lossy r1
          | [] => repl
          end
        else repl ++ lossy r0
      | [] => repl
      end
    else if in_range 240 244 n0 then
      match r0 with
      | b1 :: r1 =>
        if second4 n0 b1 then
          match r1 with
          | b2 :: r2 =>
            if cont b2 then
              match r2 with
              | b3 :: r3 =>
                if cont b3 then b0 :: b1 :: b2 :: b3 :: lossy r3
                else repl ++ lossy r2
              | [] => repl
              end
            else repl ++ lossy r1
          | [] => repl
          end
        else repl ++ lossy r0
      | [] => repl
      end
    else repl ++ lossy r0
  end.

(** ** Proofs *)

Ltac dm := Z.div_mod_to_equations.

Lemma utf8_app a b : utf8 (a ++ b) = utf8 a ++ utf8 b.
Proof. apply flat_map_app. Qed.

Lemma valid_nil : valid_utf8 [].
Proof. exists []. split; auto. Qed.

Lemma valid_app a b : valid_utf8 a -> valid_utf8 b -> valid_utf8 (a ++ b).
Proof.
  intros (ca & Ha & ->) (cb & Hb & ->). exists (ca ++ cb).
  split; [apply Forall_app; auto | symmetry; apply utf8_app].
Qed.

Lemma valid_enc c : scalar c -> valid_utf8 (utf8_enc c).
Proof.
  intros. exists [c]. split; auto. cbn. now rewrite app_nil_r.
Qed.

Ltac nb := repeat rewrite b2n_n2b in *.

Local Ltac Zify.zify_post_hook ::= Z.div_mod_to_equations.

Lemma utf8_enc_cases c : scalar c ->
  (c < 128 /\ utf8_enc c = [n2b c]) \/
  (exists b0 b1, utf8_enc c = [b0; b1] /\
     128 <= c /\ c < 2048 /\ b2n b0 = 192 + c / 64 /\ b2n b1 = 128 + c mod 64) \/
  (exists b0 b1 b2, utf8_enc c = [b0; b1; b2] /\
     2048 <= c /\ c < 65536 /\ b2n b0 = 224 + c / 4096 /\
     b2n b1 = 128 + (c / 64) mod 64 /\ b2n b2 = 128 + c mod 64) \/
  (exists b0 b1 b2 b3, utf8_enc c = [b0; b1; b2; b3] /\
     65536 <= c /\ b2n b0 = 240 + c / 262144 /\ b2n b1 = 128 + (c / 4096) mod 64 /\
     b2n b2 = 128 + (c / 64) mod 64 /\ b2n b3 = 128 + c mod 64).
Proof.
  intros Hs. unfold scalar in Hs. unfold utf8_enc.
  destruct (N.ltb_spec c 128); [left; auto|right].
  destruct (N.ltb_spec c 2048).
  { left. eexists _, _. split; [reflexivity|]. nb. repeat split; try lia. }
  right. destruct (N.ltb_spec c 65536).
  { left. eexists _, _, _. split; [reflexivity|]. nb. repeat split; try lia. }
  right. eexists _, _, _, _. split; [reflexivity|]. nb. repeat split; try lia.
Qed.

Lemma in_range_true lo hi n : lo <= n -> n <= hi -> in_range lo hi n = true.
Proof. intros. unfold in_range. apply andb_true_intro. rewrite N.leb_le, N.leb_le. lia. Qed.
Lemma in_range_false lo hi n : n < lo \/ hi < n -> in_range lo hi n = false.
Proof.
  intros. unfold in_range. apply andb_false_iff. rewrite !N.leb_gt. lia.
Qed.
Lemma in_range_iff lo hi n : in_range lo hi n = true <-> lo <= n /\ n <= hi.
Proof. unfold in_range. rewrite andb_true_iff, !N.leb_le. lia. Qed.

Lemma lossy_enc c r : scalar c -> lossy (utf8_enc c ++ r) = utf8_enc c ++ lossy r.
Proof.
  intros Hs.
  destruct (utf8_enc_cases c Hs)
    as [(Hc & E)|[(b0&b1&E&H1&H2&E0&E1)|[(b0&b1&b2&E&H1&H2&E0&E1&E2)|
        (b0&b1&b2&b3&E&H1&E0&E1&E2&E3)]]];
    rewrite E; unfold scalar in Hs; cbn [app lossy].
  - rewrite b2n_n2b, N.mod_small by lia.
    destruct (N.ltb_spec c 128); [reflexivity|lia].
  - destruct (N.ltb_spec (b2n b0) 128); [exfalso; lia|].
    rewrite (in_range_true 194 223) by lia.
    unfold cont. rewrite in_range_true by lia. reflexivity.
  - destruct (N.ltb_spec (b2n b0) 128); [exfalso; lia|].
    rewrite (in_range_false 194 223) by lia.
    rewrite (in_range_true 224 239) by lia.
    assert (S3 : second3 (b2n b0) b1 = true).
    { unfold second3.
      destruct (N.eqb_spec (b2n b0) 224); [apply in_range_true; lia|].
      destruct (N.eqb_spec (b2n b0) 237); apply in_range_true; lia. }
    rewrite S3. unfold cont. rewrite in_range_true by lia. reflexivity.
  - destruct (N.ltb_spec (b2n b0) 128); [exfalso; lia|].
    rewrite (in_range_false 194 223) by lia.
    rewrite (in_range_false 224 239) by lia.
    rewrite (in_range_true 240 244) by lia.
    assert (S4 : second4 (b2n b0) b1 = true).
    { unfold second4.
      destruct (N.eqb_spec (b2n b0) 240); [apply in_range_true; lia|].
      destruct (N.eqb_spec (b2n b0) 244); apply in_range_true; lia. }
    rewrite S4. unfold cont. rewrite in_range_true by lia.
    rewrite in_range_true by lia. reflexivity.
Qed.

(** Valid strings are delivered unchanged. *)
Lemma lossy_valid s : valid_utf8 s -> lossy s = s.
Proof.
  intros (cs & Hcs & ->). induction Hcs as [|c cs Hc Hcs IH]; [reflexivity|].
  cbn [utf8 flat_map]. rewrite lossy_enc by auto. f_equal. apply IH.
Qed.

Lemma repl_valid : valid_utf8 repl.
Proof. apply valid_enc. unfold scalar. lia. Qed.

Lemma n2b_eq n b : n = b2n b -> n2b n = b.
Proof. intros ->. apply n2b_b2n. Qed.

(** Whatever arrives, the delivered string is valid UTF-8. *)
Lemma lossy_always_valid s : valid_utf8 (lossy s).
Proof.
  remember (length s) as k eqn:Hk.
  assert (Hle : (length s <= k)%nat) by lia. clear Hk.
  revert s Hle. induction k as [|k IH]; intros s Hle.
  - destruct s; cbn in *; [apply valid_nil|lia].
  - destruct s as [|b0 r0]; [apply valid_nil|].
    cbn [length] in Hle.
    assert (IH0 : valid_utf8 (repl ++ lossy r0)).
    { apply valid_app; [apply repl_valid | apply IH; lia]. }
    pose proof (b2n_lt b0) as B0.
    cbn [lossy].
    destruct (N.ltb_spec (b2n b0) 128) as [L|L].
    { change (b0 :: lossy r0) with ([b0] ++ lossy r0).
      apply valid_app; [|apply IH; lia].
      exists [b2n b0]. split.
      - constructor; auto. unfold scalar; lia.
      - unfold utf8; cbn [flat_map app]; unfold utf8_enc. destruct (N.ltb_spec (b2n b0) 128); [|lia].
        rewrite n2b_b2n. reflexivity. }
    destruct (in_range 194 223 (b2n b0)) eqn:R2.
    { apply in_range_iff in R2.
      destruct r0 as [|b1 r1]; [apply repl_valid|].
      destruct (cont b1) eqn:C1; [|exact IH0].
      unfold cont in C1. apply in_range_iff in C1.
      change (b0 :: b1 :: lossy r1) with ([b0; b1] ++ lossy r1).
      apply valid_app; [|apply IH; cbn in Hle; lia].
      set (c := (b2n b0 - 192) * 64 + (b2n b1 - 128)).
      exists [c]. split.
      - constructor; auto. unfold scalar, c; lia.
      - unfold utf8; cbn [flat_map app]; unfold utf8_enc.
        destruct (N.ltb_spec c 128); [unfold c in *; lia|].
        destruct (N.ltb_spec c 2048); [|unfold c in *; lia].
        cbn [app]. rewrite (n2b_eq _ b0), (n2b_eq _ b1); [reflexivity| |];
          unfold c; lia. }
    destruct (in_range 224 239 (b2n b0)) eqn:R3.
    { apply in_range_iff in R3.
      destruct r0 as [|b1 r1]; [apply repl_valid|].
      destruct (second3 (b2n b0) b1) eqn:C1; [|exact IH0].
      destruct r1 as [|b2 r2]; [apply repl_valid|].
      destruct (cont b2) eqn:C2.
      2:{ apply valid_app; [apply repl_valid | apply IH; cbn in *; lia]. }
      unfold cont in C2. apply in_range_iff in C2.
      assert (K : (128 <= b2n b1 /\ b2n b1 <= 191) /\
                  (b2n b0 = 224 -> 160 <= b2n b1) /\
                  (b2n b0 = 237 -> b2n b1 <= 159)).
      { unfold second3 in C1.
        destruct (N.eqb_spec (b2n b0) 224); [apply in_range_iff in C1; lia|].
        destruct (N.eqb_spec (b2n b0) 237); apply in_range_iff in C1; lia. }
      change (b0 :: b1 :: b2 :: lossy r2) with ([b0; b1; b2] ++ lossy r2).
      apply valid_app; [|apply IH; cbn in Hle; lia].
      set (c := (b2n b0 - 224) * 4096 + (b2n b1 - 128) * 64 + (b2n b2 - 128)).
      exists [c]. split.
      - constructor; auto. unfold scalar, c; lia.
      - unfold utf8; cbn [flat_map app]; unfold utf8_enc.
        destruct (N.ltb_spec c 128); [unfold c in *; lia|].
        destruct (N.ltb_spec c 2048); [unfold c in *; lia|].
        destruct (N.ltb_spec c 65536); [|unfold c in *; lia].
        cbn [app]. rewrite (n2b_eq _ b0), (n2b_eq _ b1), (n2b_eq _ b2); [reflexivity| | |];
          unfold c; lia. }
    destruct (in_range 240 244 (b2n b0)) eqn:R4; [|exact IH0].
    apply in_range_iff in R4.
    destruct r0 as [|b1 r1]; [apply repl_valid|].
    destruct (second4 (b2n b0) b1) eqn:C1; [|exact IH0].
    destruct r1 as [|b2 r2]; [apply repl_valid|].
    destruct (cont b2) eqn:C2.
    2:{ apply valid_app; [apply repl_valid | apply IH; cbn in *; lia]. }
    destruct r2 as [|b3 r3]; [apply repl_valid|].
    destruct (cont b3) eqn:C3.
    2:{ apply valid_app; [apply repl_valid | apply IH; cbn in *; lia]. }
    unfold cont in C2, C3. apply in_range_iff in C2. apply in_range_iff in C3.
    assert (K : (128 <= b2n b1 /\ b2n b1 <= 191) /\
                (b2n b0 = 240 -> 144 <= b2n b1) /\
                (b2n b0 = 244 -> b2n b1 <= 143)).
    { unfold second4 in C1.
      destruct (N.eqb_spec (b2n b0) 240); [apply in_range_iff in C1; lia|].
      destruct (N.eqb_spec (b2n b0) 244); apply in_range_iff in C1; lia. }
    change (b0 :: b1 :: b2 :: b3 :: lossy r3) with ([b0; b1; b2; b3] ++ lossy r3).
    apply valid_app; [|apply IH; cbn in Hle; lia].
    set (c := (b2n b0 - 240) * 262144 + (b2n b1 - 128) * 4096
              + (b2n b2 - 128) * 64 + (b2n b3 - 128)).
    exists [c]. split.
    + constructor; auto. unfold scalar, c; lia.
    + unfold utf8; cbn [flat_map app]; unfold utf8_enc.
      destruct (N.ltb_spec c 128); [unfold c in *; lia|].
      destruct (N.ltb_spec c 2048); [unfold c in *; lia|].
      destruct (N.ltb_spec c 65536); [unfold c in *; lia|].
      cbn [app]. rewrite (n2b_eq _ b0), (n2b_eq _ b1), (n2b_eq _ b2), (n2b_eq _ b3);
        [reflexivity| | | |]; unfold c; lia.
Qed.

(** A string whose decoding is itself is valid: the decoder changes exactly the
    invalid strings. *)
Lemma lossy_id_iff s : lossy s = s <-> valid_utf8 s.
Proof.
  split; [intros <-; apply lossy_always_valid | apply lossy_valid].
Qed.
