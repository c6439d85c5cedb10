(** Proofs about message framing (properties C09-C12). *)
From Coq Require Import List NArith ZArith Lia Bool.
From Verif Require Import Bytes WireModel WireSpec WireProofs FrameModel.
Import ListNotations.
Open Scope N_scope.

(** ** Specification vocabulary *)

Record packet := mkPacket {
  p_id : N; p_sig : N; p_seq : N; p_ts : N; p_body : bytes
}.

Definition packet_ok (p : packet) : Prop :=
  p_id p < 2 ^ 32 /\ p_sig p < 2 ^ 16 /\ p_seq p < 2 ^ 32 /\ p_ts p < 2 ^ 64 /\
  blen (p_body p) + 26 < 2 ^ 64.

Definition wire (p : packet) : bytes :=
  pack (p_id p) (p_sig p) (p_seq p) (p_ts p) (p_body p).

Definition stream (ps : list packet) : bytes := flat_map wire ps.

Definition hdr (p : packet) : header :=
  mkHeader (p_id p) (p_sig p) (p_seq p) (p_ts p) (blen (p_body p)).

(** the bytes after the last complete packet *)
Definition incomplete (t : bytes) : Prop :=
  blen t < 26 \/
  (26 <= blen t /\ unle (slice 18 8 t) + 26 < 2 ^ 64 /\
   blen t < unle (slice 18 8 t) + 26).

(** ** Headers *)

Lemma slice_app k n b r : (k + n <= length b)%nat -> slice k n (b ++ r) = slice k n b.
Proof.
  intros H. unfold slice. rewrite skipn_app, firstn_app.
  rewrite skipn_length. replace (n - (length b - k))%nat with O by lia.
  cbn. apply app_nil_r.
Qed.

Lemma get_header_app b r : 26 <= blen b -> get_header (b ++ r) = get_header b.
Proof.
  intros H. unfold blen in H. unfold get_header. rewrite !slice_app by lia. reflexivity.
Qed.

Lemma slice_skip k n a b : length a = k -> slice k n (a ++ b) = firstn n b.
Proof. intros. unfold slice. rewrite skipn_app_len by auto. reflexivity. Qed.

Lemma wire_blen p : blen (wire p) = blen (p_body p) + 26.
Proof. unfold wire, pack. rewrite !blen_app, !blen_le. lia. Qed.

Lemma skipn_26_wire p r : skipn 26 (wire p ++ r) = p_body p ++ r.
Proof.
  unfold wire, pack. rewrite !app_assoc, <- app_assoc.
  apply skipn_app_len. rewrite !app_length, !le_length. reflexivity.
Qed.

Lemma get_header_wire p r : packet_ok p -> get_header (wire p ++ r) = hdr p.
Proof.
  intros (H1 & H2 & H3 & H4 & H5).
  unfold get_header, hdr, wire, pack. f_equal.
  - unfold slice. cbn [skipn]. rewrite <- app_assoc, firstn_app_len by apply le_length.
    apply unle_le_small. exact H1.
  - rewrite <- !app_assoc, slice_skip by apply le_length.
    rewrite firstn_app_len by apply le_length. apply unle_le_small. exact H2.
  - rewrite <- !app_assoc. rewrite (app_assoc (le 4 _) (le 2 _)).
    rewrite slice_skip by (rewrite app_length, !le_length; reflexivity).
    rewrite firstn_app_len by apply le_length. apply unle_le_small. exact H3.
  - rewrite <- !app_assoc. rewrite (app_assoc (le 4 _) (le 2 _)), (app_assoc _ (le 4 (p_seq p))).
    rewrite slice_skip by (rewrite !app_length, !le_length; reflexivity).
    rewrite firstn_app_len by apply le_length. apply unle_le_small. exact H4.
  - rewrite <- !app_assoc. rewrite (app_assoc (le 4 _) (le 2 _)), (app_assoc _ (le 4 (p_seq p))),
      (app_assoc _ (le 8 (p_ts p))).
    rewrite slice_skip by (rewrite !app_length, !le_length; reflexivity).
    rewrite firstn_app_len by apply le_length. apply unle_le_small.
    change (256 ^ N.of_nat 8) with (2 ^ 64). lia.
Qed.

(** Every byte string with a header and a complete body starts with a packet. *)
Lemma unpack b :
  26 <= blen b -> h_len (get_header b) + 26 <= blen b -> blen b < 2 ^ 64 ->
  exists p, packet_ok p /\ hdr p = get_header b /\
    b = wire p ++ skipn (N.to_nat (h_len (get_header b))) (skipn 26 b) /\
    p_body p = firstn (N.to_nat (h_len (get_header b))) (skipn 26 b).
Proof.
  intros Hb Hl Hm. set (h := get_header b) in *.
  set (body := firstn (N.to_nat (h_len h)) (skipn 26 b)).
  assert (Lb : (26 <= length b)%nat) by (unfold blen in Hb; lia).
  assert (Lbody : blen body = h_len h).
  { unfold body, blen. rewrite firstn_length, skipn_length. unfold blen in *. lia. }
  exists (mkPacket (h_id h) (h_sig h) (h_seq h) (h_ts h) body).
  assert (B : forall k n, (k + n <= 26)%nat -> length (slice k n b) = n).
  { intros. unfold slice. rewrite firstn_length, skipn_length. lia. }
  assert (U : forall k n, (k + n <= 26)%nat -> unle (slice k n b) < 256 ^ N.of_nat n).
  { intros k n Hk. pose proof (unle_bound (slice k n b)) as X. unfold blen in X.
    rewrite B in X by auto. exact X. }
  assert (R : forall k n, (k + n <= 26)%nat -> le n (unle (slice k n b)) = slice k n b).
  { intros k n Hk. rewrite <- (B k n Hk) at 1. apply le_unle. }
  split.
  { unfold packet_ok; cbn [p_id p_sig p_seq p_ts p_body]. repeat split.
    - apply (U 0 4)%nat; lia.
    - apply (U 4 2)%nat; lia.
    - apply (U 6 4)%nat; lia.
    - apply (U 10 8)%nat; lia.
    - rewrite Lbody. lia. }
  split. { unfold hdr; cbn [p_id p_sig p_seq p_ts p_body]. rewrite Lbody. destruct h; reflexivity. }
  split; [|reflexivity].
  unfold wire, pack; cbn [p_id p_sig p_seq p_ts p_body].
  rewrite Lbody. unfold h, get_header; cbn [h_id h_sig h_seq h_ts h_len].
  rewrite !R by lia.
  assert (Sp : forall (k n : nat) (l : bytes), skipn k l = firstn n (skipn k l) ++ skipn (k + n) l).
  { intros k n l. transitivity (firstn n (skipn k l) ++ skipn n (skipn k l)).
    - symmetry; apply firstn_skipn.
    - f_equal. clear. revert k n. induction l as [|x l IH]; intros k n.
      + rewrite !skipn_nil. reflexivity.
      + destruct k; [reflexivity|]. cbn. apply IH. }
  unfold slice. rewrite <- !app_assoc.
  change (unle (firstn 8 (skipn 18 b))) with (h_len h).
  unfold body. rewrite firstn_skipn.
  change b with (skipn 0 b) at 1.
  rewrite (Sp 0%nat 4%nat b) at 1. f_equal. cbn [Nat.add].
  rewrite (Sp 4%nat 2%nat b) at 1. f_equal. cbn [Nat.add].
  rewrite (Sp 6%nat 4%nat b) at 1. f_equal. cbn [Nat.add].
  rewrite (Sp 10%nat 8%nat b) at 1. f_equal. cbn [Nat.add].
  rewrite (Sp 18%nat 8%nat b) at 1. f_equal.
Qed.

Lemma app_split_len {A} (a b c d : list A) :
  a ++ b = c ++ d -> (length c <= length a)%nat -> exists e, a = c ++ e /\ d = e ++ b.
Proof.
  revert a. induction c as [|x c IH]; intros a H L.
  - exists a. auto.
  - destruct a as [|y a]; cbn in *; [lia|]. injection H as -> H.
    destruct (IH a H) as (e & -> & ->); [lia|]. exists e. auto.
Qed.

Lemma wire_nonempty p r : wire p ++ r <> [].
Proof. unfold wire, pack. cbn. discriminate. Qed.

Lemma Forall_skipn {A} (P : A -> Prop) n l : Forall P l -> Forall P (skipn n l).
Proof. intros H. revert n. induction H; intros [|n]; cbn; auto. Qed.

Section Reader.
Context {M : Type}.
Variable dm : N -> bytes -> res M err.
Variable sig : N.

Definition good (p : packet) : Prop :=
  p_sig p = sig /\ exists m, dm (p_id p) (p_body p) = Ok m.
Definition bad (p : packet) : Prop :=
  p_sig p <> sig \/ exists e, dm (p_id p) (p_body p) = Err e.
(** the body decoder does not panic on this packet *)
Definition calm (p : packet) : Prop :=
  p_sig p = sig -> dm (p_id p) (p_body p) <> Panic.

(** what a receiver should get for a packet *)
Definition deliver (p : packet) : list (header * M) :=
  if p_sig p =? sig then
    match dm (p_id p) (p_body p) with Ok m => [(hdr p, m)] | _ => [] end
  else [].

Definition badb (p : packet) : bool :=
  match deliver p with [] => true | _ => false end.

Definition count_bad (ps : list packet) : nat := length (filter badb ps).

Lemma deliver_good p : good p -> exists m, deliver p = [(hdr p, m)] /\ dm (p_id p) (p_body p) = Ok m.
Proof.
  intros (Hs & m & Hm). exists m. unfold deliver. rewrite Hs, N.eqb_refl, Hm. auto.
Qed.

Lemma deliver_bad p : bad p -> deliver p = [].
Proof.
  intros [H|(e & H)]; unfold deliver.
  - destruct (N.eqb_spec (p_sig p) sig); congruence.
  - rewrite H. destruct (p_sig p =? sig); reflexivity.
Qed.

Lemma good_badb p : good p -> badb p = false.
Proof. intros H. unfold badb. destruct (deliver_good p H) as (m & -> & _). reflexivity. Qed.
Lemma bad_badb p : bad p -> badb p = true.
Proof. intros H. unfold badb. rewrite deliver_bad by auto. reflexivity. Qed.


(** ** The reading loop against a stream of packets *)

Definition at_rest (b : bytes) (ps : list packet) : Prop :=
  match ps with [] => True | p :: _ => blen b < blen (wire p) end.

Lemma loop_spec : forall ps fuel b q rem tail,
  Forall packet_ok ps -> Forall calm ps -> incomplete tail ->
  b ++ rem = stream ps ++ tail -> (length b < fuel)%nat ->
  exists o b' q' j,
    chunk_loop dm sig fuel (mkBuf b q) = (o, mkBuf b' q') /\
    (j <= length ps)%nat /\
    b' ++ rem = stream (skipn j ps) ++ tail /\
    q' = q ++ flat_map deliver (firstn j ps) /\
    ((o = COk /\ Forall good (firstn j ps) /\ at_rest b' (skipn j ps)) \/
     (exists e j' p, o = CErr e /\ j = S j' /\ Forall good (firstn j' ps) /\
        nth_error ps j' = Some p /\ bad p)).
Proof.
  induction ps as [|p ps IH]; intros fuel b q rem tail Hok Hcalm Ht E Hf.
  - (* nothing complete left *)
    destruct fuel as [|fuel]; [lia|]. cbn [stream flat_map app] in E.
    exists COk, b, q, O. cbn [chunk_loop rb_buf].
    assert (R : chunk_loop dm sig (S fuel) (mkBuf b q) = (COk, mkBuf b q)).
    { cbn [chunk_loop rb_buf]. unfold has_header, header_len.
      destruct (N.leb_spec 26 (blen b)) as [H26|H26]; [|reflexivity]. cbn [negb].
      subst tail. destruct Ht as [Ht|(Ht1 & Ht2 & Ht3)].
      { rewrite blen_app in Ht. lia. }
      change (unle (slice 18 8 (b ++ rem))) with (h_len (get_header (b ++ rem))) in Ht2, Ht3.
      rewrite get_header_app in Ht2, Ht3 by auto. rewrite blen_app in Ht3.
      destruct (N.leb_spec (2 ^ 64) (h_len (get_header b) + 26)); [lia|].
      destruct (N.ltb_spec (blen b) (h_len (get_header b) + 26)); [reflexivity|].
      exfalso.
      (* b is a prefix of tail, so it is shorter than announced *)
      lia. }
    split; [exact R|]. split; [cbn; lia|]. split; [exact E|].
    split; [cbn; rewrite app_nil_r; reflexivity|]. left. cbn. auto.
  - inversion Hok as [|? ? Hp Hps]; subst. inversion Hcalm as [|? ? Cp Cps]; subst.
    destruct fuel as [|fuel]; [lia|].
    cbn [stream flat_map] in E. fold (stream ps) in E. rewrite <- app_assoc in E.
    destruct (N.ltb_spec (blen b) (blen (wire p))) as [Hlt|Hge].
    + (* first packet not complete yet *)
      exists COk, b, q, O.
      assert (R : chunk_loop dm sig (S fuel) (mkBuf b q) = (COk, mkBuf b q)).
      { cbn [chunk_loop rb_buf]. unfold has_header, header_len.
        destruct (N.leb_spec 26 (blen b)) as [H26|H26]; [|reflexivity]. cbn [negb].
        assert (Hh : get_header b = hdr p).
        { rewrite <- (get_header_app b rem) by auto. rewrite E. apply get_header_wire; auto. }
        rewrite Hh. cbn [h_len hdr]. rewrite wire_blen in Hlt.
        destruct Hp as (_ & _ & _ & _ & Hl).
        destruct (N.leb_spec (2 ^ 64) (blen (p_body p) + 26)); [lia|].
        destruct (N.ltb_spec (blen b) (blen (p_body p) + 26)); [reflexivity|lia]. }
      split; [exact R|]. split; [cbn; lia|].
      split. { cbn [skipn stream flat_map]. fold (stream ps). rewrite <- app_assoc. exact E. }
      split; [cbn; rewrite app_nil_r; reflexivity|]. left. cbn [firstn skipn]. auto.
    + (* first packet complete *)
      destruct (app_split_len b rem (wire p) (stream ps ++ tail) E) as (rest & -> & E').
      { unfold blen in Hge. lia. }
      clear E. cbn [chunk_loop rb_buf rb_queue].
      rewrite blen_app in Hge. pose proof (wire_blen p) as Wl.
      unfold has_header, header_len.
      destruct (N.leb_spec 26 (blen (wire p ++ rest))) as [H26|H26];
        [|rewrite blen_app in H26; lia].
      cbn [negb]. rewrite get_header_wire by auto. cbn [h_len h_sig h_id hdr].
      pose proof Hp as (_ & _ & _ & _ & Hl).
      destruct (N.leb_spec (2 ^ 64) (blen (p_body p) + 26)); [lia|].
      destruct (N.ltb_spec (blen (wire p ++ rest)) (blen (p_body p) + 26)) as [L|_];
        [rewrite blen_app in L; lia|].
      rewrite skipn_26_wire. unfold blen at 1 2 3 4 5 6. rewrite !Nnat.Nat2N.id.
      rewrite firstn_app_exact, skipn_app_exact.
      destruct (N.eqb_spec (p_sig p) sig) as [Hs|Hs]; cbn [negb].
      * destruct (dm (p_id p) (p_body p)) as [m|e|] eqn:Hdm.
        -- (* good *)
           assert (G : good p) by (split; eauto).
           destruct (deliver_good p G) as (m' & Hdel & Hm'). rewrite Hdm in Hm'. injection Hm' as <-.
           destruct rest as [|c rest].
           ++ exists COk, [], (q ++ [(hdr p, m)]), 1%nat.
              split; [reflexivity|]. split; [cbn; lia|]. split; [cbn [skipn app]; auto|].
              split. { cbn [firstn flat_map]. rewrite Hdel, app_nil_r. reflexivity. }
              left. split; [reflexivity|]. split; [cbn; auto|].
              cbn [skipn]. destruct ps as [|p2 ps]; cbn [at_rest]; [auto|].
              rewrite wire_blen, blen_nil. lia.
           ++ destruct (IH fuel (c :: rest) (q ++ [(hdr p, m)]) rem tail Hps Cps Ht)
                as (o & b' & q' & j & Hrun & Hj & Hb' & Hq' & Hcase); auto.
              { rewrite app_length in Hf. unfold wire, pack in Hf.
                rewrite !app_length, !le_length in Hf. lia. }
              exists o, b', q', (S j). split; [exact Hrun|]. split; [cbn; lia|].
              split; [exact Hb'|]. split.
              { rewrite Hq'. cbn [firstn flat_map]. rewrite Hdel, <- app_assoc. reflexivity. }
              cbn [firstn skipn].
              destruct Hcase as [(Ho & Hg & Hr)|(e & j' & p' & Ho & Hjj & Hg & Hn & Hbad)].
              ** left. split; [auto|]. split; [constructor; auto|]. auto.
              ** right. exists e, (S j'), p'. split; [auto|]. split; [auto|].
                 split; [constructor; auto|]. auto.
        -- (* bad body *)
           exists (CErr RParsing), rest, q, 1%nat.
           assert (B : bad p) by (right; eauto).
           split; [reflexivity|]. split; [cbn; lia|]. split; [cbn [skipn]; auto|].
           split. { cbn [firstn flat_map]. rewrite deliver_bad by auto. cbn. rewrite app_nil_r. reflexivity. }
           right. exists RParsing, O, p. cbn. auto.
        -- exfalso. apply (Cp Hs). exact Hdm.
      * (* foreign signature *)
        exists (CErr RSignature), rest, q, 1%nat.
        assert (B : bad p) by (left; auto).
        split; [reflexivity|]. split; [cbn; lia|]. split; [cbn [skipn]; auto|].
        split. { cbn [firstn flat_map]. rewrite deliver_bad by auto. cbn. rewrite app_nil_r. reflexivity. }
        right. exists RSignature, O, p. cbn. auto.
Qed.

Definition is_cerr (o : outcome) : bool := match o with CErr _ => true | _ => false end.
Definition count_err (os : list outcome) : nat := length (filter is_cerr os).

Lemma count_bad_good ps : Forall good ps -> count_bad ps = O.
Proof.
  unfold count_bad. induction 1 as [|p ps Hp Hps IH]; [reflexivity|].
  cbn. rewrite good_badb by auto. exact IH.
Qed.

Lemma firstn_S_nth {A} (l : list A) n x :
  nth_error l n = Some x -> firstn (S n) l = firstn n l ++ [x].
Proof.
  revert n. induction l as [|y l IH]; intros n H; [destruct n; discriminate|].
  destruct n; cbn in *; [injection H as ->; reflexivity|]. rewrite (IH n H). reflexivity.
Qed.

Lemma count_bad_app a b : count_bad (a ++ b) = (count_bad a + count_bad b)%nat.
Proof. unfold count_bad. rewrite filter_app, app_length. reflexivity. Qed.

Lemma skipn_skipn {A} i j (l : list A) : skipn i (skipn j l) = skipn (j + i) l.
Proof.
  revert l. induction j as [|j IH]; intros l; [reflexivity|].
  destruct l; [rewrite !skipn_nil; reflexivity|]. cbn. apply IH.
Qed.

Lemma firstn_plus {A} i j (l : list A) : firstn (i + j) l = firstn i l ++ firstn j (skipn i l).
Proof.
  revert l. induction i as [|i IH]; intros l; [reflexivity|].
  destruct l; [rewrite firstn_nil; cbn; rewrite firstn_nil; reflexivity|]. cbn. rewrite IH. reflexivity.
Qed.

(** One call of [chunk]. *)
Lemma chunk_spec ps b q c rem tail :
  Forall packet_ok ps -> Forall calm ps -> incomplete tail ->
  (b ++ c) ++ rem = stream ps ++ tail ->
  exists o b' q' j,
    chunk dm sig (mkBuf b q) c = (o, mkBuf b' q') /\
    (j <= length ps)%nat /\
    b' ++ rem = stream (skipn j ps) ++ tail /\
    q' = q ++ flat_map deliver (firstn j ps) /\
    o <> CPanic /\
    ((o = COk /\ count_bad (firstn j ps) = O /\ at_rest b' (skipn j ps)) \/
     (is_cerr o = true /\ count_bad (firstn j ps) = 1%nat)).
Proof.
  intros Hok Hc Ht E. unfold chunk. cbn [rb_buf rb_queue].
  destruct (loop_spec ps (S (length (b ++ c))) (b ++ c) q rem tail Hok Hc Ht E)
    as (o & b' & q' & j & Hrun & Hj & Hb' & Hq' & Hcase); [lia|].
  exists o, b', q', j. split; [exact Hrun|]. split; [auto|]. split; [auto|]. split; [auto|].
  destruct Hcase as [(-> & Hg & Hr)|(e & j' & p & -> & -> & Hg & Hn & Hb)].
  - split; [discriminate|]. left. rewrite count_bad_good by auto. auto.
  - split; [discriminate|]. right. split; [reflexivity|].
    rewrite (firstn_S_nth _ _ _ Hn), count_bad_app, count_bad_good by auto.
    unfold count_bad. cbn. rewrite bad_badb by auto. reflexivity.
Qed.

(** A sequence of calls. *)
Lemma feed_spec : forall cs ps b q rem tail,
  Forall packet_ok ps -> Forall calm ps -> incomplete tail ->
  (b ++ concat cs) ++ rem = stream ps ++ tail ->
  exists os b' q' j,
    feed dm sig (mkBuf b q) cs = (os, mkBuf b' q') /\
    (j <= length ps)%nat /\
    b' ++ rem = stream (skipn j ps) ++ tail /\
    q' = q ++ flat_map deliver (firstn j ps) /\
    ~ In CPanic os /\
    count_err os = count_bad (firstn j ps).
Proof.
  induction cs as [|c cs IH]; intros ps b q rem tail Hok Hc Ht E.
  - cbn [concat] in E. rewrite app_nil_r in E.
    exists [], b, q, O. cbn. rewrite app_nil_r.
    split; [auto|]. split; [lia|]. split; [auto|]. split; [auto|]. split; auto.
  - cbn [concat] in E.
    destruct (chunk_spec ps b q c (concat cs ++ rem) tail Hok Hc Ht)
      as (o & b1 & q1 & j1 & Hrun & Hj1 & Hb1 & Hq1 & Hnp & Hcase).
    { rewrite <- E. rewrite <- !app_assoc. reflexivity. }
    destruct (IH (skipn j1 ps) b1 q1 rem tail) as (os & b2 & q2 & j2 & Hf & Hj2 & Hb2 & Hq2 & Hnp2 & Hce).
    { apply Forall_skipn; auto. } { apply Forall_skipn; auto. } { auto. }
    { rewrite <- app_assoc. exact Hb1. }
    exists (o :: os), b2, q2, (j1 + j2)%nat.
    rewrite skipn_length in Hj2.
    cbn [feed]. rewrite Hrun, Hf. split; [reflexivity|]. split; [lia|].
    split; [rewrite <- skipn_skipn; exact Hb2|].
    split. { rewrite Hq2, Hq1, firstn_plus, flat_map_app, app_assoc. reflexivity. }
    split. { intros [C|C]; [congruence|auto]. }
    rewrite firstn_plus, count_bad_app. unfold count_err in *. cbn [filter].
    destruct Hcase as [(-> & H0 & _)|(He & H1)].
    + cbn. lia.
    + rewrite He. cbn [length]. lia.
Qed.

(** Feeding nothing more lets the reader catch up behind bad packets. *)
Lemma catch_up : forall n ps b q tail,
  Forall packet_ok ps -> Forall calm ps -> incomplete tail ->
  b = stream ps ++ tail -> (count_bad ps < n)%nat ->
  exists os, feed dm sig (mkBuf b q) (repeat [] n) =
      (os, mkBuf tail (q ++ flat_map deliver ps)) /\
    ~ In CPanic os /\ count_err os = count_bad ps.
Proof.
  induction n as [|n IH]; intros ps b q tail Hok Hc Ht E Hn; [lia|].
  destruct (chunk_spec ps b q [] [] tail Hok Hc Ht)
    as (o & b1 & q1 & j & Hrun & Hj & Hb1 & Hq1 & Hnp & Hcase).
  { rewrite !app_nil_r. exact E. }
  rewrite app_nil_r in Hb1.
  assert (Sp : count_bad ps = (count_bad (firstn j ps) + count_bad (skipn j ps))%nat).
  { rewrite <- count_bad_app, firstn_skipn. reflexivity. }
  cbn [repeat feed]. rewrite Hrun.
  destruct Hcase as [(-> & H0 & Hr)|(He & H1)].
  - (* everything consumed *)
    assert (Z : skipn j ps = []).
    { destruct (skipn j ps) as [|p l] eqn:Es; [reflexivity|]. exfalso.
      cbn [at_rest] in Hr. rewrite Hb1 in Hr. cbn [stream flat_map] in Hr.
      rewrite !blen_app in Hr. lia. }
    rewrite Z in *. cbn [stream flat_map app] in Hb1. subst b1.
    assert (F : firstn j ps = ps).
    { rewrite <- (firstn_skipn j ps) at 2. rewrite Z, app_nil_r. reflexivity. }
    rewrite F in *.
    (* remaining calls do nothing *)
    destruct n as [|n].
    + exists [COk]. cbn. rewrite Hq1. split; [reflexivity|]. split; [intros [C|[]]; discriminate|].
      unfold count_err; cbn. lia.
    + destruct (IH [] tail q1 tail) as (os & Hf & Hnp2 & Hce); auto.
      { unfold count_bad; cbn. lia. }
      rewrite Hf. exists (COk :: os). cbn [flat_map] in *. rewrite app_nil_r, Hq1.
      split; [reflexivity|]. split; [intros [C|C]; [discriminate|auto]|].
      unfold count_err in *. cbn. rewrite Hce. unfold count_bad at 1. cbn. lia.
  - destruct (IH (skipn j ps) b1 q1 tail) as (os & Hf & Hnp2 & Hce); auto.
    { apply Forall_skipn; auto. } { apply Forall_skipn; auto. } { lia. }
    rewrite Hf. exists (o :: os). rewrite Hq1, <- app_assoc, <- flat_map_app, firstn_skipn.
    split; [reflexivity|]. split; [intros [C|C]; [congruence|auto]|].
    unfold count_err in *. cbn [filter]. rewrite He. cbn [length]. lia.
Qed.

Lemma feed_app cs1 : forall cs2 st,
  feed dm sig st (cs1 ++ cs2) =
  let (o1, st1) := feed dm sig st cs1 in
  let (o2, st2) := feed dm sig st1 cs2 in (o1 ++ o2, st2).
Proof.
  induction cs1 as [|c cs1 IH]; intros cs2 st.
  - cbn. destruct (feed dm sig st cs2). reflexivity.
  - cbn [app feed]. destruct (chunk dm sig st c) as [o st1]. rewrite IH.
    destruct (feed dm sig st1 cs1) as [o1 st2]. destruct (feed dm sig st2 cs2). reflexivity.
Qed.

(** C11: any stream of good and bad packets, cut anyhow; once the stream has
    been fed and [chunk] has been called often enough to report every bad
    packet, exactly the good packets have been delivered, in order, and each
    bad packet has been reported once. *)
Lemma framing_resync ps tail cs n :
  Forall packet_ok ps -> Forall calm ps -> incomplete tail ->
  concat cs = stream ps ++ tail -> (count_bad ps < n)%nat ->
  exists os, feed dm sig rbuf_new (cs ++ repeat [] n) =
      (os, mkBuf tail (flat_map deliver ps)) /\
    ~ In CPanic os /\ count_err os = count_bad ps.
Proof.
  intros Hok Hc Ht E Hn. rewrite feed_app.
  destruct (feed_spec cs ps [] [] [] tail Hok Hc Ht)
    as (os & b1 & q1 & j & Hf & Hj & Hb1 & Hq1 & Hnp & Hce).
  { cbn. rewrite app_nil_r. exact E. }
  unfold rbuf_new. rewrite Hf. rewrite app_nil_r in Hb1.
  assert (Sp : count_bad ps = (count_bad (firstn j ps) + count_bad (skipn j ps))%nat).
  { rewrite <- count_bad_app, firstn_skipn. reflexivity. }
  destruct (catch_up n (skipn j ps) b1 q1 tail) as (os2 & Hf2 & Hnp2 & Hce2); auto.
  { apply Forall_skipn; auto. } { apply Forall_skipn; auto. } { lia. }
  rewrite Hf2. exists (os ++ os2). rewrite Hq1. cbn [app].
  rewrite <- flat_map_app, firstn_skipn. split; [reflexivity|]. split.
  - rewrite in_app_iff. tauto.
  - unfold count_err in *. rewrite filter_app, app_length. lia.
Qed.

Lemma good_calm p : good p -> calm p.
Proof. intros (Hs & m & Hm) _. congruence. Qed.

Lemma deliver_goods ps : Forall good ps ->
  exists ms, flat_map deliver ps = combine (map hdr ps) ms /\
    Forall2 (fun p m => dm (p_id p) (p_body p) = Ok m) ps ms.
Proof.
  induction 1 as [|p ps Hp Hps (ms & IH1 & IH2)].
  - exists []. auto.
  - destruct (deliver_good p Hp) as (m & Hd & Hm).
    exists (m :: ms). cbn. rewrite Hd, IH1. split; [reflexivity|]. constructor; auto.
Qed.

Lemma all_ok os : ~ In CPanic os -> count_err os = O -> Forall (eq COk) os.
Proof.
  unfold count_err. induction os as [|o os IH]; intros Hn Hc; [constructor|].
  destruct o; cbn in *.
  - constructor; [reflexivity|]. apply IH; [tauto|auto].
  - discriminate.
  - exfalso. apply Hn. auto.
Qed.

Lemma feed_snoc_ok cs c st os st' :
  feed dm sig st (cs ++ [c]) = (os, st') ->
  exists os' o st1, feed dm sig st cs = (os', st1) /\ chunk dm sig st1 c = (o, st') /\ os = os' ++ [o].
Proof.
  rewrite feed_app. destruct (feed dm sig st cs) as [o1 st1]. cbn [feed].
  destruct (chunk dm sig st1 c) as [o st2] eqn:E. intros [= <- <-].
  exists o1, o, st1. auto.
Qed.

(** C09: a stream of good packets, cut anyhow. *)
Lemma framing_chunking_independent ps tail cs :
  Forall packet_ok ps -> Forall good ps -> incomplete tail ->
  concat cs = stream ps ++ tail ->
  exists os, feed dm sig rbuf_new cs = (os, mkBuf tail (flat_map deliver ps)) /\
    Forall (eq COk) os.
Proof.
  intros Hok Hg Ht E.
  assert (Hc : Forall calm ps) by (eapply Forall_impl; [apply good_calm|auto]).
  assert (CB : forall j, count_bad (firstn j ps) = O).
  { intros j. apply count_bad_good. rewrite <- (firstn_skipn j ps) in Hg.
    apply Forall_app in Hg. tauto. }
  destruct (feed_spec cs ps [] [] [] tail Hok Hc Ht)
    as (os & b1 & q1 & j & Hf & Hj & Hb1 & Hq1 & Hnp & Hce).
  { cbn. rewrite app_nil_r. exact E. }
  assert (Hos : Forall (eq COk) os) by (apply all_ok; auto; rewrite Hce; apply CB).
  exists os. split; [|exact Hos]. unfold rbuf_new. rewrite Hf.
  rewrite app_nil_r in Hb1.
  assert (Z : skipn j ps = []).
  { destruct cs as [|c0 cs0] using rev_ind.
    - (* nothing fed: the stream is empty *)
      cbn in E. destruct ps as [|p ps]; [apply skipn_nil|].
      exfalso. symmetry in E. cbn in E. 
      apply (wire_nonempty p (stream ps ++ tail)). rewrite <- E. 
      unfold stream. rewrite <- app_assoc. reflexivity.
    - clear IHcs0. apply feed_snoc_ok in Hf as (os' & o & [b0 q0] & Hf0 & Hch & ->).
      rewrite concat_app in E. cbn [concat] in E. rewrite app_nil_r in E.
      destruct (feed_spec cs0 ps [] [] c0 tail Hok Hc Ht)
        as (os2 & b2 & q2 & j2 & Hf2 & Hj2 & Hb2 & Hq2 & _ & _).
      { exact E. }
      rewrite Hf0 in Hf2. injection Hf2 as <- <- <-.
      destruct (chunk_spec (skipn j2 ps) b0 q0 c0 [] tail) as
        (o3 & b3 & q3 & j3 & Hch3 & Hj3 & Hb3 & Hq3 & _ & Hcase3).
      { apply Forall_skipn; auto. } { apply Forall_skipn; auto. } { auto. }
      { rewrite app_nil_r. exact Hb2. }
      rewrite Hch in Hch3. injection Hch3 as <- <- <-.
      apply Forall_app in Hos as (_ & Ho). assert (Ho1 : COk = o) by (inversion Ho; auto). rewrite <- Ho1 in Hcase3. clear Ho.
      destruct Hcase3 as [(_ & _ & Hr)|(C & _)]; [|discriminate].
      rewrite skipn_skipn in Hr, Hb3. rewrite app_nil_r in Hb3.
      assert (Z3 : skipn (j2 + j3) ps = []).
      { destruct (skipn (j2 + j3) ps) as [|p l] eqn:Es; [reflexivity|]. exfalso.
        cbn [at_rest] in Hr. rewrite Hb3 in Hr. cbn [stream flat_map] in Hr.
        rewrite !blen_app in Hr. lia. }
      rewrite Z3 in Hb3. cbn [stream flat_map app] in Hb3.
      destruct (skipn j ps) as [|p l] eqn:Es; [reflexivity|]. exfalso.
      (* the same buffer cannot still contain packets *)
      assert (X : blen tail = blen (stream (p :: l) ++ tail)).
      { rewrite <- Hb1. rewrite <- Hb3 at 1. reflexivity. }
      cbn [stream flat_map] in X. rewrite !blen_app, wire_blen in X. lia. }
  rewrite Z in Hb1. cbn [stream flat_map app] in Hb1. subst b1.
  rewrite Hq1. cbn [app]. do 3 f_equal.
  rewrite <- (firstn_skipn j ps) at 2. rewrite Z, app_nil_r. reflexivity.
Qed.

(** C10 (the part that holds): whenever [chunk] reports success, the buffer
    holds no complete packet, for arbitrary bytes. *)
Lemma loop_ok_no_packet fuel : forall st st',
  chunk_loop dm sig fuel st = (COk, st') ->
  forall p r, packet_ok p -> rb_buf st' <> wire p ++ r.
Proof.
  induction fuel as [|fuel IH]; intros st st' H p r Hp C; [discriminate|].
  cbn [chunk_loop] in H. unfold has_header, header_len in H.
  assert (W : blen (rb_buf st') = blen (p_body p) + 26 + blen r).
  { rewrite C, blen_app, wire_blen. reflexivity. }
  destruct (N.leb_spec 26 (blen (rb_buf st))) as [H26|H26]; cbn [negb] in H.
  2:{ injection H as <-. lia. }
  destruct (N.leb_spec (2 ^ 64) (h_len (get_header (rb_buf st)) + 26)); [discriminate|].
  destruct (N.ltb_spec (blen (rb_buf st)) (h_len (get_header (rb_buf st)) + 26)) as [L|L].
  { injection H as <-. rewrite C, get_header_wire in L by auto. cbn [h_len hdr] in L.
    rewrite <- C in L. lia. }
  destruct (h_sig (get_header (rb_buf st)) =? sig); cbn [negb] in H; [|discriminate].
  destruct (dm _ _); try discriminate.
  destruct (skipn _ (skipn 26 (rb_buf st))) as [|c l] eqn:Er.
  - injection H as <-. cbn in C. symmetry in C. revert C. apply wire_nonempty.
  - eapply IH; eauto.
Qed.

(** C12: why the reader can panic at all. *)
Lemma loop_panic fuel : forall b q st',
  (length b < fuel)%nat -> blen b < 2 ^ 64 ->
  chunk_loop dm sig fuel (mkBuf b q) = (CPanic, st') ->
  exists ps r, Forall packet_ok ps /\ Forall good ps /\ b = stream ps ++ r /\
    ((26 <= blen r /\ 2 ^ 64 <= unle (slice 18 8 r) + 26) \/
     (exists p r', packet_ok p /\ r = wire p ++ r' /\ p_sig p = sig /\
        dm (p_id p) (p_body p) = Panic)).
Proof.
  induction fuel as [|fuel IH]; intros b q st' Hf Hb H; [lia|].
  cbn [chunk_loop rb_buf rb_queue] in H. unfold has_header, header_len in H.
  destruct (N.leb_spec 26 (blen b)) as [H26|H26]; cbn [negb] in H; [|discriminate].
  destruct (N.leb_spec (2 ^ 64) (h_len (get_header b) + 26)) as [Ho|Ho].
  { exists [], b. repeat split; auto. }
  destruct (N.ltb_spec (blen b) (h_len (get_header b) + 26)) as [L|L]; [discriminate|].
  destruct (unpack b H26 L Hb) as (p & Hp & Hh & Eb & Ebody).
  assert (E1 : h_sig (get_header b) = p_sig p) by (rewrite <- Hh; reflexivity).
  assert (E2 : h_id (get_header b) = p_id p) by (rewrite <- Hh; reflexivity).
  rewrite <- Ebody in H. rewrite E1, E2 in H.
  set (rest := skipn (N.to_nat (h_len (get_header b))) (skipn 26 b)) in *.
  destruct (N.eqb_spec (p_sig p) sig) as [Hs|Hs]; cbn [negb] in H; [|discriminate].
  destruct (dm (p_id p) (p_body p)) as [m|e|] eqn:Hdm; [|discriminate|].
  - destruct rest as [|c rest'] eqn:Er; [discriminate|].
    assert (Ll : (length (c :: rest') < fuel)%nat).
    { assert (X : length b = (length (wire p) + length (c :: rest'))%nat).
      { rewrite Eb at 1. apply app_length. }
      unfold wire, pack in X. rewrite !app_length, !le_length in X. lia. }
    assert (Lb : blen (c :: rest') < 2 ^ 64).
    { assert (X : blen b = blen (wire p) + blen (c :: rest')).
      { rewrite Eb at 1. apply blen_app. }
      lia. }
    destruct (IH (c :: rest') _ _ Ll Lb H) as (ps & r & Hok & Hg & E & Hr).
    exists (p :: ps), r. split; [auto|]. split; [constructor; auto; split; eauto|].
    split; [|exact Hr]. rewrite Eb. rewrite E. cbn [stream flat_map].
    rewrite <- app_assoc. reflexivity.
  - exists [], b. split; [auto|]. split; [auto|]. split; [auto|]. right.
    exists p, rest. auto.
Qed.

End Reader.

(** FIFO: draining the queue returns the messages in order of arrival. *)
Fixpoint drain {M : Type} (n : nat) (st : rbuf M) : list (header * M) * rbuf M :=
  match n with
  | O => ([], st)
  | S n => match next st with
           | (Some m, st1) => let (ms, st2) := drain n st1 in (m :: ms, st2)
           | (None, st1) => ([], st1)
           end
  end.

Lemma drain_fifo {M : Type} (q : list (header * M)) : forall b n, (length q <= n)%nat ->
  drain n (mkBuf b q) = (q, mkBuf b []).
Proof.
  induction q as [|m q IH]; intros b n H.
  - destruct n; reflexivity.
  - destruct n; cbn in H; [lia|]. cbn. rewrite IH by lia. reflexivity.
Qed.
