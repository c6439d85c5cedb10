(** Proofs about the wire codec. *)
From Coq Require Import List NArith ZArith Lia Bool Permutation.
From Verif Require Import Bytes Utf8 WireModel WireSpec.
Import ListNotations.
Open Scope N_scope.

(** ** Field lists *)

Lemma take_app k a b : length a = k -> take k (a ++ b) = Some (a, b).
Proof.
  intros H. unfold take. rewrite app_length.
  destruct (Nat.ltb_spec (length a + length b) k); [lia|].
  rewrite firstn_app_len, skipn_app_len by auto. reflexivity.
Qed.

Lemma take_exact k a : length a = k -> take k a = Some (a, []).
Proof. intros. rewrite <- (app_nil_r a) at 1. apply take_app; auto. Qed.

Lemma take_spec k bs a r : take k bs = Some (a, r) -> bs = a ++ r /\ length a = k.
Proof.
  unfold take. destruct (Nat.ltb_spec (length bs) k); [discriminate|].
  intros [= <- <-]. rewrite firstn_skipn, firstn_length. split; auto. lia.
Qed.

Lemma rank_width_ok w :
  (w = 1 \/ w = 2 \/ w = 4 \/ w = 8)%nat ->
  rank_width (unle (le 1 (8 * N.of_nat w))) = Some w.
Proof. intros [ | [ | [ | ] ] ]; subst; reflexivity. Qed.

Lemma storage_next_ser s r :
  seg_ok s -> storage_next (ser_seg s ++ r) = Ok (s_id s, s_body s, r).
Proof.
  intros (Hid & Hw & Hb). unfold storage_next, ser_seg.
  rewrite <- app_assoc, take_app by apply le_length.
  rewrite <- app_assoc, take_app by apply le_length.
  rewrite rank_width_ok by auto.
  rewrite <- app_assoc, take_app by apply le_length.
  rewrite unle_le_small by auto.
  rewrite blen_app.
  destruct (N.ltb_spec (blen (s_body s) + blen r) (blen (s_body s))); [lia|].
  unfold blen at 1 2. rewrite Nnat.Nat2N.id, firstn_app_exact, skipn_app_exact.
  rewrite unle_le_small by (simpl; lia). reflexivity.
Qed.

Lemma ser_seg_length s : (4 <= length (ser_seg s))%nat \/ s_width s = O.
Proof.
  unfold ser_seg. rewrite !app_length, !le_length. lia.
Qed.

Lemma ser_seg_nonempty s r : ser_seg s ++ r <> [].
Proof. unfold ser_seg; cbn; discriminate. Qed.

Definition pair_of (s : seg) : N * bytes := (s_id s, s_body s).

Lemma storage_loop_ser segs : forall fuel m,
  segs <> [] -> Forall seg_ok segs -> (length segs <= fuel)%nat ->
  storage_loop fuel (ser segs) m = Ok (rev (map pair_of segs) ++ m).
Proof.
  induction segs as [|s segs IH]; intros fuel m Hne Hok Hf; [congruence|].
  inversion Hok; subst. destruct fuel as [|fuel]; [cbn in Hf; lia|].
  cbn [storage_loop ser flat_map]. rewrite storage_next_ser by auto.
  cbn [bind]. fold (ser segs).
  destruct segs as [|s' segs].
  - cbn. reflexivity.
  - assert (E : exists x l, ser (s' :: segs) = x :: l).
    { destruct (ser (s' :: segs)) eqn:E; eauto.
      exfalso. cbn in E. eapply (ser_seg_nonempty s'). exact E. }
    destruct E as (x & l & E). rewrite E. rewrite <- E.
    rewrite IH; auto; try discriminate.
    2:{ cbn in *; lia. }
    cbn [map rev]. rewrite <- !app_assoc. reflexivity.
Qed.

Lemma ser_length segs : (length segs <= length (ser segs))%nat.
Proof.
  induction segs as [|s segs IH]; [cbn; lia|].
  cbn [ser flat_map length]. rewrite app_length. fold (ser segs).
  unfold ser_seg. rewrite !app_length, !le_length. lia.
Qed.

Lemma storage_new_ser segs :
  Forall seg_ok segs -> storage_new (ser segs) = Ok (rev (map pair_of segs)).
Proof.
  intros Hok. unfold storage_new.
  destruct segs as [|s segs]; [reflexivity|].
  destruct (ser (s :: segs)) as [|x l] eqn:E.
  { exfalso. cbn in E. eapply (ser_seg_nonempty s). exact E. }
  rewrite <- E. rewrite storage_loop_ser; auto; try discriminate.
  - rewrite app_nil_r. reflexivity.
  - rewrite E. rewrite <- E. apply ser_length.
Qed.

Lemma sget_find l id :
  sget (map pair_of l) id =
  match find (fun s => s_id s =? id) l with
  | Some s => Some (s_body s) | None => None
  end.
Proof.
  induction l as [|s l IH]; [reflexivity|].
  cbn. destruct (s_id s =? id); auto.
Qed.

Lemma sget_last segs id : sget (rev (map pair_of segs)) id = last_body segs id.
Proof. rewrite <- map_rev, sget_find. reflexivity. Qed.

Lemma last_body_in segs s :
  NoDup (map s_id segs) -> In s segs -> last_body segs (s_id s) = Some (s_body s).
Proof.
  intros Hnd Hin. unfold last_body.
  assert (Hnd' : NoDup (map s_id (rev segs))).
  { rewrite map_rev. apply NoDup_rev. auto. }
  apply in_rev in Hin. revert Hin Hnd'. generalize (rev segs) as l.
  induction l as [|t l IH]; cbn; [tauto|].
  intros [->|Hin] Hn; inversion Hn; subst.
  - rewrite N.eqb_refl. reflexivity.
  - destruct (N.eqb_spec (s_id t) (s_id s)) as [E|E].
    + exfalso. apply H1. rewrite E. apply in_map; auto.
    + auto.
Qed.

(** ** Primitives *)

Lemma unle_signed_le k z :
  (k <> 0)%nat ->
  (- 2 ^ (8 * Z.of_nat k - 1) <= z < 2 ^ (8 * Z.of_nat k - 1))%Z ->
  unle_signed (le_signed k z) = z.
Proof.
  intros Hk Hz. unfold unle_signed, le_signed.
  assert (P : (2 ^ (8 * Z.of_nat k) = 2 * 2 ^ (8 * Z.of_nat k - 1))%Z).
  { rewrite <- Z.pow_succ_r by lia. f_equal. lia. }
  assert (Pos : (0 < 2 ^ (8 * Z.of_nat k - 1))%Z) by (apply Z.pow_pos_nonneg; lia).
  rewrite le_length.
  assert (B : (0 <= z mod 2 ^ (8 * Z.of_nat k) < 2 ^ (8 * Z.of_nat k))%Z)
    by (apply Z.mod_pos_bound; lia).
  rewrite unle_le_small.
  2:{ assert (E : 256 ^ N.of_nat k = Z.to_N (2 ^ (8 * Z.of_nat k))).
      { change 256 with (2 ^ 8). rewrite <- N.pow_mul_r.
        rewrite Z2N.inj_pow by lia. f_equal. lia. }
      rewrite E. apply Z2N.inj_lt; lia. }
  rewrite Z2N.id by lia.
  set (M := (2 ^ (8 * Z.of_nat k))%Z) in *.
  set (H := (2 ^ (8 * Z.of_nat k - 1))%Z) in *.
  destruct (Z_lt_ge_dec z 0).
  - assert (E : (z mod M = z + M)%Z).
    { symmetry. apply Z.mod_unique with (-1)%Z; lia. }
    rewrite E. destruct (Z.ltb_spec (z + M) H); lia.
  - rewrite Z.mod_small by lia.
    destruct (Z.ltb_spec z H); lia.
Qed.

Lemma le_signed_length k z : length (le_signed k z) = k.
Proof. apply le_length. Qed.

Lemma le_nonempty k n : (k <> 0)%nat -> le k n <> [].
Proof. destruct k; cbn; congruence. Qed.

Definition size_ok (p : prim) (bs : bytes) : Prop :=
  match prim_size p with Some k => length bs = k | None => True end.

Lemma prim_roundtrip p v : ty_prim p v ->
  exists bs, enc_prim p v = Ok bs /\ dec_prim p bs = Ok v /\ size_ok p bs /\
             (bs = [] <-> is_empty v = true).
Proof.
  intros Ht.
  assert (HU : forall k z, (k <> 0)%nat -> (0 <= z < Z.of_N (256 ^ N.of_nat k))%Z ->
             Z.of_N (unle (le k (Z.to_N z))) = z).
  { intros k z Hk Hz. rewrite unle_le_small by lia. lia. }
  destruct p; destruct v; cbn in Ht; try contradiction;
    cbn [enc_prim]; eexists; (split; [reflexivity|]);
    unfold dec_prim, size_ok; cbn [prim_size];
    try rewrite take_exact by (first [apply le_length|apply le_signed_length]);
    cbn [prim_val];
    try (rewrite HU; [|lia|cbn; lia]);
    try (rewrite unle_signed_le; [|lia|cbn; lia]);
    try (rewrite unle_le_small; [|cbn; lia]);
    try (split; [reflexivity|]);
    try (split; [first [apply le_length|apply le_signed_length]|]);
    try (cbn; split; [discriminate|discriminate]).
  - destruct b; cbn; repeat split; discriminate.
  - split; [rewrite lossy_valid by auto; reflexivity|]. split; [exact I|].
    destruct s; cbn; split; congruence.
Qed.

(** ** Array items *)

Lemma enc_items_cons item w ws :
  enc_items item (w :: ws) = (do x <- item w; do y <- enc_items item ws; Ok (x ++ y)).
Proof. reflexivity. Qed.

Lemma dec_items_step k item f lb r :
  length lb = k -> (k <> 0)%nat ->
  dec_items k item (S f) (lb ++ r) =
  (if 2 ^ 64 <=? N.of_nat k + unle lb then Panic
   else if blen r <? unle lb then Err EShort
   else do v <- item (firstn (N.to_nat (unle lb)) r);
        do vs <- dec_items k item f (skipn (N.to_nat (unle lb)) r);
        Ok (v :: vs)).
Proof.
  intros Hl Hk. cbn [dec_items]. rewrite take_app by auto.
  destruct (lb ++ r) eqn:E; [|reflexivity].
  destruct lb; cbn in *; [lia|discriminate].
Qed.

Lemma dec_items_one k item f x r v :
  (k = 4 \/ k = 8)%nat -> blen x < 256 ^ N.of_nat k ->
  N.of_nat k + blen x < 2 ^ 64 ->
  item x = Ok v ->
  dec_items k item (S f) ((le k (blen x) ++ x) ++ r) =
  (do vs <- dec_items k item f r; Ok (v :: vs)).
Proof.
  intros Hk Hx Ho Hi. rewrite <- app_assoc.
  rewrite dec_items_step; [|apply le_length|lia].
  rewrite unle_le_small by auto.
  destruct (N.leb_spec (2 ^ 64) (N.of_nat k + blen x)); [lia|].
  rewrite blen_app. destruct (N.ltb_spec (blen x + blen r) (blen x)); [lia|].
  unfold blen. rewrite Nnat.Nat2N.id, firstn_app_exact, skipn_app_exact, Hi.
  reflexivity.
Qed.

Lemma dec_chunks_one k item f x r v :
  (k <> 0)%nat -> length x = k -> item x = Ok v ->
  dec_chunks k item (S f) (x ++ r) =
  (do vs <- dec_chunks k item f r; Ok (v :: vs)).
Proof.
  intros Hk Hx Hi. cbn [dec_chunks]. rewrite take_app by auto. rewrite Hi.
  destruct (x ++ r) eqn:E; [|reflexivity].
  destruct x; cbn in *; [lia|discriminate].
Qed.

(** What the induction gives for one element type. *)
Definition elem_ok (b : base) (nrm : val -> val) (w : val) : Prop :=
  exists x, enc_base b w = Ok x /\
    (match b with BPrim p => size_ok p x | _ => True end) /\
    (match b with BPrim PStr => blen x < 2 ^ 32 | _ => True end) /\
    (blen x < 2 ^ 64 -> dec_base b x = Ok (nrm w)).

Definition enc_list (b : base) (ws : list val) : res bytes err :=
  enc_items (fun u => do y <- enc_base b u; Ok (wrap_item b y)) ws.

Lemma list_roundtrip b nrm ws :
  Forall (elem_ok b nrm) ws ->
  exists bs, enc_list b ws = Ok bs /\ (bs = [] <-> ws = []) /\
    (blen bs < 2 ^ 64 -> dec_list b (dec_base b) bs = Ok (VList (map nrm ws))).
Proof.
  intros Hws.
  assert (Hk : forall k, (k = 4 \/ k = 8)%nat ->
    (forall x, wrap_item b x = le k (blen x) ++ x) ->
    (forall w x, In w ws -> enc_base b w = Ok x -> blen x < 2 ^ 64 -> blen x < 256 ^ N.of_nat k) ->
    exists bs, enc_list b ws = Ok bs /\ (bs = [] <-> ws = []) /\
      (blen bs < 2 ^ 64 -> forall fuel, (length bs <= fuel)%nat ->
        dec_items k (dec_base b) fuel bs = Ok (map nrm ws))).
  { intros k K W S. induction Hws as [|w ws (x & Ex & _ & _ & Dx) Hws IH].
    - exists []. split; [reflexivity|]. split; [tauto|].
      intros _ fuel _. destruct fuel; reflexivity.
    - destruct IH as (ys & Ey & _ & Dy); [intros; eapply S; eauto; right; auto|].
      exists ((le k (blen x) ++ x) ++ ys). split.
      { unfold enc_list in *. rewrite enc_items_cons, Ex. cbn [bind].
        rewrite Ey. cbn [bind]. rewrite W. reflexivity. }
      split.
      { split; [|discriminate]. intros C.
        destruct k; [lia|]. discriminate C. }
      intros Hlt fuel Hf. rewrite !blen_app, blen_le in Hlt.
      rewrite !app_length, le_length in Hf.
      destruct fuel as [|fuel]; [lia|].
      rewrite dec_items_one with (v := nrm w); auto; try lia.
      + rewrite Dy by lia. reflexivity.
      + eapply S; [left; reflexivity|exact Ex|lia].
      + apply Dx. lia. }
  assert (Hc : forall p k, b = BPrim p -> prim_size p = Some k ->
    exists bs, enc_list b ws = Ok bs /\ (bs = [] <-> ws = []) /\
      (blen bs < 2 ^ 64 -> forall fuel, (length bs <= fuel)%nat ->
        dec_chunks k (dec_base b) fuel bs = Ok (map nrm ws))).
  { intros p k -> Hp. clear Hk.
    assert (K0 : (k <> 0)%nat) by (destruct p; cbn in Hp; congruence).
    induction Hws as [|w ws (x & Ex & Sx & _ & Dx) Hws IH].
    - exists []. split; [reflexivity|]. split; [tauto|].
      intros _ fuel _. destruct fuel; reflexivity.
    - destruct IH as (ys & Ey & _ & Dy).
      unfold size_ok in Sx. rewrite Hp in Sx.
      exists (x ++ ys). split.
      { unfold enc_list in *. rewrite enc_items_cons, Ex. cbn [bind].
        rewrite Ey. cbn [bind]. destruct p; cbn in *; try discriminate; reflexivity. }
      split.
      { split; [|discriminate]. intros C. destruct x; cbn in *; [lia|discriminate]. }
      intros Hlt fuel Hf. rewrite blen_app in Hlt. rewrite app_length in Hf.
      destruct fuel as [|fuel]; [lia|].
      rewrite dec_chunks_one with (v := nrm w); auto.
      + rewrite Dy by lia. reflexivity.
      + apply Dx. lia. }
  destruct b as [p|fs|vrs].
  - destruct (prim_size p) as [k|] eqn:Hp.
    + destruct (Hc p k eq_refl Hp) as (bs & E & N0 & D).
      exists bs. split; auto. split; auto. intros Hlt. unfold dec_list.
      rewrite Hp, D by (auto; lia). reflexivity.
    + assert (p = PStr) by (destruct p; cbn in Hp; congruence). subst p.
      destruct (Hk 4%nat) as (bs & E & N0 & D); auto.
      { intros w x Hin Ex _. rewrite Forall_forall in Hws.
        destruct (Hws w Hin) as (x' & Ex' & _ & L & _).
        rewrite Ex in Ex'. injection Ex' as <-. exact L. }
      exists bs. split; auto. split; auto. intros Hlt. unfold dec_list. rewrite Hp.
      rewrite D by (auto; lia). reflexivity.
  - destruct (Hk 8%nat) as (bs & E & N0 & D); auto.
    exists bs. split; auto. split; auto. intros Hlt. unfold dec_list.
    rewrite D by (auto; lia). reflexivity.
  - destruct (Hk 8%nat) as (bs & E & N0 & D); auto.
    exists bs. split; auto. split; auto. intros Hlt. unfold dec_list.
    rewrite D by (auto; lia). reflexivity.
Qed.

(** ** Round trip *)

Definition P_base (st : bool) (b : base) : Prop :=
  forall v, wf_base b -> ty_base b v -> canon st b v ->
  exists bs, enc_base b v = Ok bs /\
    (match b with BPrim p => size_ok p bs | _ => True end) /\
    (bs = [] <-> is_empty v = true) /\
    (blen bs < 2 ^ 64 -> dec_base b bs = Ok (norm b v)).

Definition P_fields (st : bool) (fs : fields) : Prop :=
  forall vs, wf_fields fs -> ty_fields fs vs -> canon_fields st fs vs ->
  exists bs, enc_fields fs vs = Ok bs /\ (bs = [] <-> vs = []) /\
    (blen bs < 2 ^ 64 ->
     exists segs, bs = ser segs /\ Forall seg_ok segs /\ map s_id segs = field_ids fs /\
       forall m, (forall s, In s segs -> sget m (s_id s) = Some (s_body s)) ->
                 dec_fields fs m = Ok (norm_fields fs vs)).

Definition P_variants (st : bool) (vrs : variants) : Prop :=
  forall i w, wf_variants vrs -> ty_variant vrs i w -> canon_variant st vrs i w ->
  exists bs, enc_variant vrs i w = Ok bs /\
    (bs = [] <-> is_empty w = true) /\
    (blen bs < 2 ^ 64 ->
     dec_variant vrs (N.of_nat i) bs = Ok (i, norm_variant vrs i w)).

Lemma rep_roundtrip st rep b :
  P_base st b -> forall w, wf_base b -> ty_rep rep b w -> canon_rep st rep b w ->
  exists bs, enc_rep rep b w = Ok bs /\
    (rep = false -> match b with BPrim p => size_ok p bs | _ => True end) /\
    (bs = [] <-> is_empty w = true) /\
    (blen bs < 2 ^ 64 -> dec_rep rep b bs = Ok (norm_rep rep b w)).
Proof.
  intros IH w Hwf Hty Hc. destruct rep; unfold enc_rep, dec_rep, norm_rep, ty_rep, canon_rep in *.
  - destruct w as [| | | |ws| | | | |]; try contradiction.
    destruct (list_roundtrip b (norm b) ws) as (bs & E & N0 & D).
    { rewrite Forall_forall in *. intros u Hin.
      destruct (Hc u Hin) as (Cu & Su).
      destruct (IH u Hwf (Hty u Hin) Cu) as (x & Ex & Sx & _ & Dx).
      exists x. repeat split; auto.
      destruct b as [p| |]; auto. destruct p; auto.
      specialize (Hty u Hin). cbn in Hty. destruct u; try contradiction.
      cbn in Ex. injection Ex as <-. exact Su. }
    exists bs. split; [exact E|]. split; [discriminate|]. split; [|exact D].
    rewrite N0. destruct ws; cbn; split; congruence.
  - destruct (IH w Hwf Hty Hc) as (bs & E & S & N0 & D).
    exists bs. auto.
Qed.

(** The segment a field produces. *)
Lemma value_buffer_seg rep b id x :
  id < 65536 -> blen x < 2 ^ 64 ->
  (rep = false -> match b with BPrim p => size_ok p x | _ => True end) ->
  exists w, value_buffer id (size_class rep b x) x = ser_seg (mkSeg id w x) /\
            seg_ok (mkSeg id w x).
Proof.
  intros Hid Hx Hs.
  assert (H8 : value_buffer id (E64 (blen x)) x = ser_seg (mkSeg id 8 x) /\
               seg_ok (mkSeg id 8 x)).
  { unfold value_buffer, ser_seg, seg_ok; cbn [s_id s_width s_body].
    split; [rewrite <- !app_assoc; reflexivity|].
    split; [auto|]. split; [auto|]. exact Hx. }
  unfold size_class. destruct rep; [exists 8%nat; exact H8|].
  destruct b as [p| |]; try (exists 8%nat; exact H8).
  specialize (Hs eq_refl). cbn in Hs. unfold size_ok in Hs.
  destruct (prim_size p) as [k|] eqn:Hp; [|exists 8%nat; exact H8].
  exists 1%nat. unfold value_buffer, ser_seg, seg_ok; cbn [s_id s_width s_body].
  split.
  - rewrite <- !app_assoc. unfold blen. rewrite Hs. reflexivity.
  - split; [auto|]. split; [auto|]. unfold blen. rewrite Hs.
    destruct p; cbn in Hp; try discriminate; injection Hp as <-; cbn; lia.
Qed.

Lemma empty_seg id :
  id < 65536 ->
  empty_buffer_val id = ser_seg (mkSeg id 1 []) /\ seg_ok (mkSeg id 1 []).
Proof.
  intros. unfold empty_buffer_val, value_buffer, ser_seg, seg_ok; cbn [s_id s_width s_body].
  split; [rewrite <- !app_assoc; reflexivity|]. split; [auto|]. split; [auto|]. reflexivity.
Qed.

Lemma value_buffer_blen id sz x : blen x <= blen (value_buffer id sz x).
Proof. unfold value_buffer. rewrite !blen_app. lia. Qed.

Theorem roundtrip_gen st :
  (forall b, P_base st b) /\ (forall fs, P_fields st fs) /\ (forall vrs, P_variants st vrs).
Proof.
  apply ty_mut; unfold P_base, P_fields, P_variants.
  - (* primitive *)
    intros p v _ Ht _. destruct (prim_roundtrip p v Ht) as (bs & E & D & S & N0).
    exists bs. cbn. auto.
  - (* struct *)
    intros fs IH v (Hnd & Hwf) Ht Hc.
    destruct v as [| | | | |vs| | | |]; cbn in Ht; try contradiction.
    destruct (IH vs Hwf Ht Hc) as (bs & E & N0 & D).
    exists bs. split; [exact E|]. split; [exact I|]. split.
    { rewrite N0. destruct vs; cbn; split; congruence. }
    intros Hlt. destruct (D Hlt) as (segs & -> & Hok & Hids & Hdec).
    cbn [dec_base norm]. rewrite storage_new_ser by auto. cbn [bind].
    rewrite Hdec; [reflexivity|].
    intros s Hin. rewrite sget_last. apply last_body_in; auto.
    rewrite Hids. auto.
  - (* enum *)
    intros vrs IH v (Hcnt & Hwf) Ht Hc.
    destruct v as [| | | | | |i w| | |]; cbn in Ht, Hc; try contradiction.
    destruct Hc as (Hne & Hc).
    destruct (IH i w Hwf Ht Hc) as (bs & E & N0 & D).
    exists (le 2 (N.of_nat i) ++ bs). cbn [enc_base]. rewrite E. cbn [bind].
    split; [reflexivity|]. split; [exact I|].
    split; [split; [discriminate|cbn; discriminate]|].
    intros Hlt. rewrite blen_app, blen_le in Hlt.
    assert (Hi : (i < variant_count vrs)%nat).
    { clear - Ht. revert i Ht. induction vrs as [|r b vrs IH]; intros i Ht; cbn in *; [tauto|].
      destruct i; [lia|]. apply IH in Ht. lia. }
    assert (Hbs : bs <> []) by (rewrite N0; congruence).
    cbn [dec_base]. rewrite blen_app, blen_le.
    destruct (N.leb_spec (N.of_nat 2 + blen bs) 2).
    { destruct bs; [congruence|]. rewrite blen_cons in *. lia. }
    rewrite firstn_app_len, skipn_app_len by apply le_length.
    rewrite unle_le_small by (change (256 ^ N.of_nat 2) with 65536; lia).
    rewrite D by lia. reflexivity.
  - (* no more fields *)
    intros vs _ Ht _. destruct vs; cbn in Ht; try contradiction.
    exists []. split; [reflexivity|]. split; [tauto|]. intros _. exists [].
    repeat split; auto.
  - (* field *)
    intros id opt rep b IHb fs IHfs vs (Hid & _ & Hwb & Hwf) Ht Hc.
    destruct vs as [|v vs]; cbn in Ht; try contradiction.
    destruct Ht as (Hv & Ht). cbn in Hc. destruct Hc as (Hcv & Hc).
    destruct (IHfs vs Hwf Ht Hc) as (ys & Ey & _ & Dy).
    (* the segment of this field *)
    assert (F : exists (x : bytes) (s : seg),
      (match opt, v with
       | true, VNone => Ok (empty_buffer_val id)
       | true, VSome w => do x <- enc_rep rep b w; Ok (value_buffer id (size_class rep b x) x)
       | true, _ => Err EIll
       | false, w => do x <- enc_rep rep b w; Ok (value_buffer id (size_class rep b x) x)
       end) = Ok x /\ x <> [] /\
      (blen x < 2 ^ 64 -> x = ser_seg s /\ seg_ok s /\ s_id s = id /\
        (if opt then
           match s_body s with
           | [] => Ok VNone
           | _ => do w <- dec_rep rep b (s_body s); Ok (VSome w)
           end
         else dec_rep rep b (s_body s)) =
        Ok (match opt, v with
            | true, VSome w => norm_opt w (norm_rep rep b w)
            | true, _ => v
            | false, w => norm_rep rep b w
            end))).
    { destruct opt.
      - destruct v as [| | | | | | | | |w]; try contradiction.
        + destruct (empty_seg id Hid) as (E & O).
          exists (empty_buffer_val id), (mkSeg id 1 []).
          split; [reflexivity|]. split; [discriminate|]. intros _.
          repeat split; auto.
        + destruct Hcv as (_ & Hcw).
          destruct (rep_roundtrip st rep b IHb w Hwb Hv Hcw) as (x & Ex & Sx & N0 & Dx).
          destruct (N.ltb_spec (blen x) (2 ^ 64)) as [L|L].
          * destruct (value_buffer_seg rep b id x Hid L Sx) as (wd & Es & Os).
            exists (value_buffer id (size_class rep b x) x), (mkSeg id wd x).
            rewrite Ex. cbn [bind]. split; [reflexivity|]. split; [discriminate|].
            intros _. split; [auto|]. split; [auto|]. split; [auto|].
            cbn [s_body]. unfold norm_opt. destruct x as [|c x].
            -- destruct N0 as (N0 & _). rewrite N0 by auto. reflexivity.
            -- destruct (is_empty w) eqn:Ew.
               { destruct N0 as (_ & N0). discriminate (N0 eq_refl). }
               rewrite Dx by auto. reflexivity.
          * exists (value_buffer id (size_class rep b x) x), (mkSeg id 8 x).
            rewrite Ex. cbn [bind]. split; [reflexivity|]. split; [discriminate|].
            intros C. pose proof (value_buffer_blen id (size_class rep b x) x). lia.
      - destruct (rep_roundtrip st rep b IHb v Hwb Hv Hcv) as (x & Ex & Sx & N0 & Dx).
        destruct (N.ltb_spec (blen x) (2 ^ 64)) as [L|L].
        + destruct (value_buffer_seg rep b id x Hid L Sx) as (wd & Es & Os).
          exists (value_buffer id (size_class rep b x) x), (mkSeg id wd x).
          rewrite Ex. cbn [bind]. split; [reflexivity|]. split; [discriminate|].
          intros _. split; [auto|]. split; [auto|]. split; [auto|].
          cbn [s_body]. rewrite Dx by auto. reflexivity.
        + exists (value_buffer id (size_class rep b x) x), (mkSeg id 8 x).
          rewrite Ex. cbn [bind]. split; [reflexivity|]. split; [discriminate|].
          intros C. pose proof (value_buffer_blen id (size_class rep b x) x). lia. }
    destruct F as (x & s & Ex & Nx & Fx).
    exists (x ++ ys). split.
    { cbn [enc_fields]. 
      transitivity (do x0 <-
        (match opt, v with
         | true, VNone => Ok (empty_buffer_val id)
         | true, VSome w => do x <- enc_rep rep b w; Ok (value_buffer id (size_class rep b x) x)
         | true, _ => Err EIll
         | false, w => do x <- enc_rep rep b w; Ok (value_buffer id (size_class rep b x) x)
         end); do y <- enc_fields fs vs; Ok (x0 ++ y)).
      { reflexivity. }
      rewrite Ex. cbn [bind]. rewrite Ey. reflexivity. }
    split.
    { split; [|discriminate]. destruct x; [congruence|discriminate]. }
    intros Hlt. rewrite blen_app in Hlt.
    destruct (Fx ltac:(lia)) as (Es & Os & Is & Ds).
    destruct (Dy ltac:(lia)) as (segs & -> & Hok & Hids & Hdec).
    exists (s :: segs). split; [cbn; rewrite Es; reflexivity|].
    split; [constructor; auto|]. split; [cbn; rewrite Is, Hids; reflexivity|].
    intros m Hm. cbn [dec_fields].
    rewrite <- Is at 1. rewrite Hm by (left; reflexivity).
    rewrite Hdec by (intros; apply Hm; right; auto).
    transitivity (do v0 <-
       (if opt then
           match s_body s with
           | [] => Ok VNone
           | _ => do w <- dec_rep rep b (s_body s); Ok (VSome w)
           end
         else dec_rep rep b (s_body s)); Ok (v0 :: norm_fields fs vs)).
    { destruct opt, (s_body s); reflexivity. }
    rewrite Ds. reflexivity.
  - (* no variant *)
    intros i w _ Ht. contradiction.
  - (* variant *)
    intros rep b IHb vrs IHv i w (Hwb & Hwf) Ht Hc.
    destruct i as [|i].
    + destruct (rep_roundtrip st rep b IHb w Hwb Ht Hc) as (x & Ex & _ & N0 & Dx).
      exists x. split; [exact Ex|]. split; [exact N0|]. intros L.
      cbn [dec_variant N.of_nat]. rewrite N.eqb_refl.
      transitivity (do w0 <- dec_rep rep b x; @Ok _ err (O, w0)); [reflexivity|].
      rewrite Dx by auto. reflexivity.
    + destruct (IHv i w Hwf Ht Hc) as (x & Ex & N0 & Dx).
      exists x. split; [exact Ex|]. split; [exact N0|]. intros L.
      cbn [dec_variant]. destruct (N.eqb_spec (N.of_nat (S i)) 0); [lia|].
      replace (N.of_nat (S i) - 1) with (N.of_nat i) by lia.
      rewrite Dx by auto. reflexivity.
Qed.

(** ** [norm] is the identity on strictly canonical values *)

Lemma norm_canon :
  (forall b v, ty_base b v -> canon true b v -> norm b v = v) /\
  (forall fs vs, ty_fields fs vs -> canon_fields true fs vs -> norm_fields fs vs = vs) /\
  (forall vrs i w, ty_variant vrs i w -> canon_variant true vrs i w -> norm_variant vrs i w = w).
Proof.
  assert (R : forall rep b w, (forall v, ty_base b v -> canon true b v -> norm b v = v) ->
            ty_rep rep b w -> canon_rep true rep b w -> norm_rep rep b w = w).
  { intros rep b w IH Ht Hc. destruct rep; unfold ty_rep, canon_rep, norm_rep in *; auto.
    destruct w; try contradiction. f_equal.
    induction vs as [|u us IHu]; [reflexivity|].
    inversion Ht; inversion Hc; subst. cbn. rewrite IH, IHu; tauto. }
  apply ty_mut.
  - reflexivity.
  - intros fs IH v Ht Hc. destruct v; cbn in Ht; try contradiction.
    cbn. rewrite IH; auto.
  - intros vrs IH v Ht Hc. destruct v; cbn in Ht, Hc; try contradiction.
    cbn. rewrite IH; tauto.
  - intros vs Ht _. destruct vs; cbn in Ht; try contradiction. reflexivity.
  - intros id opt rep b IHb fs IHfs vs Ht Hc.
    destruct vs as [|v vs]; cbn in Ht; try contradiction.
    destruct Ht as (Hv & Ht). cbn in Hc. destruct Hc as (Hcv & Hc).
    cbn [norm_fields]. rewrite IHfs by auto. f_equal.
    destruct opt.
    + destruct v; try contradiction; auto.
      destruct Hcv as (Hne & Hcv). unfold norm_opt. rewrite Hne by auto. f_equal.
      apply (R rep b v); auto.
    + apply (R rep b v); auto.
  - intros i w Ht. contradiction.
  - intros rep b IHb vrs IHv i w Ht Hc. destruct i.
    + apply (R rep b w); auto.
    + cbn. apply IHv; auto.
Qed.
