(** Proofs about the TypeScript codec and its agreement with the Rust one. *)
From Coq Require Import List NArith ZArith Lia Bool.
From Verif Require Import Bytes Utf8 WireModel WireSpec WireProofs FrameModel FrameProofs TsModel.
Import ListNotations.
Open Scope N_scope.

(** ** What the TypeScript side supports *)

(** Schemas: field ids below [lim], no arrays of enums, enum payloads are
    primitives, arrays of primitives or single structs. *)
Fixpoint ts_ok (lim : N) (b : base) : Prop :=
  match b with
  | BPrim _ => True
  | BStruct fs => ts_ok_fields lim fs
  | BEnum vrs => ts_ok_variants lim vrs
  end
with ts_ok_fields (lim : N) (fs : fields) : Prop :=
  match fs with
  | FNil => True
  | FCons id _ rep b fs =>
    id < lim /\ (rep && is_enum b = false) /\ ts_ok lim b /\ ts_ok_fields lim fs
  end
with ts_ok_variants (lim : N) (vrs : variants) : Prop :=
  match vrs with
  | VNil => True
  | VCons rep b vrs =>
    match b with
    | BPrim _ => True
    | BStruct _ => rep = false
    | BEnum _ => False
    end /\ ts_ok lim b /\ ts_ok_variants lim vrs
  end.

(** a byte order mark: U+FEFF *)
Definition has_bom (s : bytes) : Prop :=
  exists r, map b2n s = 239 :: 187 :: 191 :: r.

Definition plain_prim (p : prim) (v : val) : Prop :=
  match p, v with
  | PStr, VStr s => ~ has_bom s
  | _, _ => True
  end.

(** Values: no [Defaults], no string starting with a byte order mark, strings
    inside string arrays shorter than 2^32 bytes. *)
Fixpoint ts_val (b : base) (v : val) {struct b} : Prop :=
  match b with
  | BPrim p => plain_prim p v
  | BStruct fs => match v with VStruct vs => ts_val_fields fs vs | _ => True end
  | BEnum vrs =>
    match v with
    | VVariant i w => ts_val_variant vrs i w
    | VDefaults => False
    | _ => True
    end
  end
with ts_val_fields (fs : fields) (vs : list val) {struct fs} : Prop :=
  match fs, vs with
  | FCons _ opt rep b fs, v :: vs =>
    (match opt, v with
     | true, VSome w =>
       if rep
       then match w with
            | VList ws => Forall (fun u => ts_val b u /\ short_str b u) ws
            | _ => True
            end
       else ts_val b w
     | true, _ => True
     | false, w =>
       if rep
       then match w with
            | VList ws => Forall (fun u => ts_val b u /\ short_str b u) ws
            | _ => True
            end
       else ts_val b w
     end) /\ ts_val_fields fs vs
  | _, _ => True
  end
with ts_val_variant (vrs : variants) (i : nat) (w : val) {struct vrs} : Prop :=
  match vrs, i with
  | VNil, _ => True
  | VCons rep b _, O =>
    if rep
    then match w with
         | VList ws => Forall (fun u => ts_val b u /\ short_str b u) ws
         | _ => True
         end
    else ts_val b w
  | VCons _ _ vrs, S i => ts_val_variant vrs i w
  end.

Definition ts_val_rep (rep : bool) (b : base) (w : val) : Prop :=
  if rep
  then match w with
       | VList ws => Forall (fun u => ts_val b u /\ short_str b u) ws
       | _ => True
       end
  else ts_val b w.

Definition ts_enc_rep (rep : bool) (b : base) (w : val) : res bytes err :=
  if rep
  then match w with
       | VList ws => enc_items (fun u => do y <- ts_enc_base b u; ts_wrap b y) ws
       | _ => Err EIll
       end
  else ts_enc_base b w.

Definition ts_dec_rep (rep : bool) (b : base) (buf : bytes) : res val err :=
  if rep then ts_dec_list b (ts_dec_base b) buf else ts_dec_base b buf.

(** ** Storage *)

Lemma unle_low id : id < 256 -> unle (firstn 1 (le 2 id)) = id.
Proof.
  intros H. cbn [le firstn unle]. rewrite b2n_n2b, N.mod_small; lia.
Qed.

Lemma ts_storage_next_ser s r :
  seg_ok s -> s_id s < 256 -> ts_storage_next (ser_seg s ++ r) = Ok (s_id s, s_body s, r).
Proof.
  intros (Hid & Hw & Hb) H8. unfold ts_storage_next, ser_seg.
  rewrite <- app_assoc, take_app by apply le_length.
  rewrite <- app_assoc, take_app by apply le_length.
  rewrite rank_width_ok by auto.
  rewrite <- app_assoc, take_app by apply le_length.
  rewrite unle_le_small by auto.
  rewrite blen_app.
  destruct (N.ltb_spec (blen (s_body s) + blen r) (blen (s_body s))); [lia|].
  unfold blen at 1 2. rewrite Nnat.Nat2N.id, firstn_app_exact, skipn_app_exact.
  rewrite unle_low by auto. reflexivity.
Qed.

Lemma ts_storage_loop_ser segs : forall fuel m,
  Forall seg_ok segs -> Forall (fun s => s_id s < 256) segs -> (length segs <= fuel)%nat ->
  ts_storage_loop fuel (ser segs) m = Ok (rev (map pair_of segs) ++ m).
Proof.
  induction segs as [|s segs IH]; intros fuel m Hok H8 Hf.
  { destruct fuel; reflexivity. }
  inversion Hok; inversion H8; subst. destruct fuel as [|fuel]; [cbn in Hf; lia|].
  cbn [ts_storage_loop ser flat_map]. fold (ser segs).
  destruct (ser_seg s ++ ser segs) eqn:E.
  { exfalso. eapply ser_seg_nonempty; exact E. }
  rewrite <- E. rewrite ts_storage_next_ser by auto. cbn [bind].
  rewrite IH; auto; [|cbn in Hf; lia].
  cbn [map rev]. rewrite <- !app_assoc. reflexivity.
Qed.

Lemma ts_storage_new_ser segs :
  Forall seg_ok segs -> Forall (fun s => s_id s < 256) segs ->
  ts_storage_new (ser segs) = Ok (rev (map pair_of segs)).
Proof.
  intros Hok H8. unfold ts_storage_new.
  rewrite ts_storage_loop_ser; auto; [rewrite app_nil_r; reflexivity|apply ser_length].
Qed.

(** ** Primitives *)

Lemma strip_bom_id s : ~ has_bom s -> strip_bom s = s.
Proof.
  intros H. destruct s as [|a [|b [|c r]]]; try reflexivity. cbn.
  destruct (N.eqb_spec (b2n a) 239); [|reflexivity].
  destruct (N.eqb_spec (b2n b) 187); [|reflexivity].
  destruct (N.eqb_spec (b2n c) 191); [|reflexivity].
  exfalso. apply H. exists (map b2n r). cbn. congruence.
Qed.

Lemma ts_prim_enc p v : ty_prim p v -> ts_enc_prim p v = enc_prim p v.
Proof.
  intros H. destruct p, v; cbn in H; try contradiction; try reflexivity;
    cbn [ts_enc_prim enc_prim]; unfold ts_int;
    match goal with |- context[(?a <=? ?z)%Z && (?z <? ?b)%Z] =>
      destruct (Z.leb_spec a z); [|lia]; destruct (Z.ltb_spec z b); [|lia] end;
    reflexivity.
Qed.

Lemma ts_prim_roundtrip p v : ty_prim p v -> plain_prim p v ->
  exists bs, enc_prim p v = Ok bs /\ ts_enc_prim p v = Ok bs /\
             ts_dec_prim p bs = Ok v /\ size_ok p bs /\ (bs = [] <-> is_empty v = true).
Proof.
  intros Ht Hp. rewrite ts_prim_enc by auto.
  destruct (prim_roundtrip p v Ht) as (bs & E & D & S & N0).
  exists bs. split; [auto|]. split; [auto|]. split; [|auto].
  unfold ts_dec_prim, dec_prim in *.
  destruct (prim_size p) as [k|] eqn:Hk.
  - unfold size_ok in S. rewrite Hk in S. subst k. rewrite Nat.eqb_refl.
    rewrite take_exact in D by auto. injection D as D. rewrite <- D.
    destruct p; cbn in Hk; try discriminate; try reflexivity.
    (* bool *)
    destruct v as [| |b| | | | | | |]; cbn in Ht; try contradiction.
    cbn in E. injection E as <-. destruct b; reflexivity.
  - destruct p; cbn in Hk; try discriminate.
    destruct v; cbn in Ht, Hp; try contradiction. cbn in E. injection E as <-.
    cbn [ts_prim_val]. rewrite strip_bom_id, lossy_valid by auto. reflexivity.
Qed.

(** ** Array items *)

Lemma ts_items_loop_one k item f x r v :
  (k = 4 \/ k = 8)%nat -> blen x < 256 ^ N.of_nat k ->
  item x = Ok v ->
  ts_items_loop k item (S f) ((le k (blen x) ++ x) ++ r) =
  match r with
  | [] => Ok [v]
  | _ => do vs <- ts_items_loop k item f r; Ok (v :: vs)
  end.
Proof.
  intros Hk Hx Hi. rewrite <- app_assoc. cbn [ts_items_loop].
  rewrite take_app by apply le_length.
  rewrite unle_le_small by auto. rewrite blen_app, N.min_l by lia.
  unfold blen. rewrite Nnat.Nat2N.id, firstn_app_exact, skipn_app_exact, Hi.
  cbn [bind]. destruct r; reflexivity.
Qed.

Definition ts_elem_ok (b : base) (nrm : val -> val) (w : val) : Prop :=
  exists x, enc_base b w = Ok x /\ ts_enc_base b w = Ok x /\
    (match b with BPrim p => size_ok p x | _ => True end) /\
    (match b with BPrim PStr => blen x < 2 ^ 32 | _ => True end) /\
    (blen x < 2 ^ 64 -> ts_dec_base b x = Ok (nrm w)).

Definition ts_enc_list (b : base) (ws : list val) : res bytes err :=
  enc_items (fun u => do y <- ts_enc_base b u; ts_wrap b y) ws.

Lemma ts_list_enc b nrm ws :
  Forall (ts_elem_ok b nrm) ws -> ts_enc_list b ws = enc_list b ws.
Proof.
  unfold ts_enc_list, enc_list.
  induction 1 as [|w ws (x & E1 & E2 & _ & L & _) H IH]; [reflexivity|].
  rewrite !enc_items_cons, E1, E2. cbn [bind]. rewrite IH.
  destruct b as [p| |]; [destruct p|..]; cbn [ts_wrap bind wrap_item] in *; try reflexivity.
  destruct (N.ltb_spec (blen x) (2 ^ 32)); [reflexivity|lia].
Qed.

Lemma ts_items_ok k item bs vs :
  (bs = [] -> vs = []) ->
  (bs <> [] -> (k <= length bs)%nat) ->
  (bs <> [] -> ts_items_loop k item (length bs) bs = Ok vs) ->
  ts_items k item bs = Ok vs.
Proof.
  intros H0 H1 H2. unfold ts_items. destruct bs as [|c bs].
  - rewrite H0; auto.
  - destruct (Nat.ltb_spec (length (c :: bs)) k).
    + specialize (H1 ltac:(discriminate)). lia.
    + apply H2. discriminate.
Qed.

Lemma ts_list_roundtrip b nrm ws :
  Forall (ts_elem_ok b nrm) ws ->
  exists bs, enc_list b ws = Ok bs /\ ts_enc_list b ws = Ok bs /\ (bs = [] <-> ws = []) /\
    (blen bs < 2 ^ 64 -> ts_dec_list b (ts_dec_base b) bs = Ok (VList (map nrm ws))).
Proof.
  intros Hws. rewrite (ts_list_enc b nrm ws Hws).
  assert (Hk : forall k, (k = 4 \/ k = 8)%nat ->
    (forall x, wrap_item b x = le k (blen x) ++ x) ->
    (forall w x, In w ws -> enc_base b w = Ok x -> blen x < 2 ^ 64 -> blen x < 256 ^ N.of_nat k) ->
    exists bs, enc_list b ws = Ok bs /\ (bs = [] <-> ws = []) /\
      (bs <> [] -> (k <= length bs)%nat) /\
      (blen bs < 2 ^ 64 -> bs <> [] -> forall fuel, (length bs <= fuel)%nat ->
        ts_items_loop k (ts_dec_base b) fuel bs = Ok (map nrm ws))).
  { intros k K W S. induction Hws as [|w ws (x & Ex & _ & _ & _ & Dx) Hws IH].
    - exists []. split; [reflexivity|]. split; [tauto|]. split; [congruence|]. congruence.
    - destruct IH as (ys & Ey & N0 & _ & Dy); [intros; eapply S; eauto; right; auto|].
      exists ((le k (blen x) ++ x) ++ ys). split.
      { unfold enc_list in *. rewrite enc_items_cons, Ex. cbn [bind].
        rewrite Ey. cbn [bind]. rewrite W. reflexivity. }
      split.
      { split; [|discriminate]. intros C.
        destruct k; [lia|]. discriminate C. }
      split.
      { intros _. rewrite !app_length, le_length. lia. }
      intros Hlt _ fuel Hf. rewrite !blen_app, blen_le in Hlt.
      rewrite !app_length, le_length in Hf.
      destruct fuel as [|fuel]; [lia|].
      rewrite ts_items_loop_one with (v := nrm w); auto.
      + destruct ys as [|c ys].
        * destruct N0 as (N0 & _). rewrite N0 by auto. reflexivity.
        * rewrite Dy; [reflexivity|lia|discriminate|lia].
      + eapply S; [left; reflexivity|exact Ex|lia].
      + apply Dx. lia. }
  assert (Hc : forall p k, b = BPrim p -> prim_size p = Some k ->
    exists bs, enc_list b ws = Ok bs /\ (bs = [] <-> ws = []) /\
      (blen bs < 2 ^ 64 -> forall fuel, (length bs <= fuel)%nat ->
        dec_chunks k (ts_dec_base b) fuel bs = Ok (map nrm ws))).
  { intros p k -> Hp. clear Hk.
    assert (K0 : (k <> 0)%nat) by (destruct p; cbn in Hp; congruence).
    induction Hws as [|w ws (x & Ex & _ & Sx & _ & Dx) Hws IH].
    - exists []. split; [reflexivity|]. split; [tauto|].
      intros _ fuel _. destruct fuel; reflexivity.
    - destruct IH as (ys & Ey & _ & Dy).
      unfold size_ok in Sx. rewrite Hp in Sx.
      exists (x ++ ys). split.
      { unfold enc_list in *. rewrite enc_items_cons, Ex. cbn [bind].
        rewrite Ey. cbn [bind]. destruct p; cbn in *; try discriminate; reflexivity. }
      split.
      { split; [|discriminate]. intros C. destruct x; cbn in *; [lia|discriminate]. }
      intros Hlt fuel Hf. rewrite blen_app in Hlt. rewrite app_length in Hf.
      destruct fuel as [|fuel]; [lia|].
      rewrite dec_chunks_one with (v := nrm w); auto.
      + rewrite Dy by lia. reflexivity.
      + apply Dx. lia. }
  destruct b as [p|fs|vrs].
  - destruct (prim_size p) as [k|] eqn:Hp.
    + destruct (Hc p k eq_refl Hp) as (bs & E & N0 & D).
      exists bs. split; auto. split; auto. split; auto. intros Hlt. unfold ts_dec_list.
      rewrite Hp, D by (auto; lia). reflexivity.
    + assert (p = PStr) by (destruct p; cbn in Hp; congruence). subst p.
      destruct (Hk 4%nat) as (bs & E & N0 & L & D); auto.
      { intros w x Hin Ex _. rewrite Forall_forall in Hws.
        destruct (Hws w Hin) as (x' & Ex' & _ & _ & L & _).
        rewrite Ex in Ex'. injection Ex' as <-. exact L. }
      exists bs. split; auto. split; auto. split; auto. intros Hlt. unfold ts_dec_list. rewrite Hp.
      rewrite ts_items_ok with (vs := map nrm ws); auto.
      intros Z. apply N0 in Z. subst ws. reflexivity.
  - destruct (Hk 8%nat) as (bs & E & N0 & L & D); auto.
    exists bs. split; auto. split; auto. split; auto. intros Hlt. unfold ts_dec_list.
    rewrite ts_items_ok with (vs := map nrm ws); auto.
    intros Z. apply N0 in Z. subst ws. reflexivity.
  - destruct (Hk 8%nat) as (bs & E & N0 & L & D); auto.
    exists bs. split; auto. split; auto. split; auto. intros Hlt. unfold ts_dec_list.
    rewrite ts_items_ok with (vs := map nrm ws); auto.
    intros Z. apply N0 in Z. subst ws. reflexivity.
Qed.

(** ** Round trip: both encoders agree and the TypeScript decoder inverts them *)

Definition T_base (b : base) : Prop :=
  forall v, wf_base b -> ts_ok 256 b -> ty_base b v -> ts_val b v ->
  exists bs, enc_base b v = Ok bs /\ ts_enc_base b v = Ok bs /\
    (match b with BPrim p => size_ok p bs | _ => True end) /\
    (bs = [] <-> is_empty v = true) /\
    (blen bs < 2 ^ 64 -> ts_dec_base b bs = Ok (norm b v)).

Definition T_fields (fs : fields) : Prop :=
  forall vs, wf_fields fs -> ts_ok_fields 256 fs -> ty_fields fs vs -> ts_val_fields fs vs ->
  exists bs, enc_fields fs vs = Ok bs /\ ts_enc_fields fs vs = Ok bs /\ (bs = [] <-> vs = []) /\
    (blen bs < 2 ^ 64 ->
     exists segs, bs = ser segs /\ Forall seg_ok segs /\ Forall (fun s => s_id s < 256) segs /\
       map s_id segs = field_ids fs /\
       forall m, (forall s, In s segs -> sget m (s_id s) = Some (s_body s)) ->
                 ts_dec_fields fs m = Ok (norm_fields fs vs)).

Definition T_variants (vrs : variants) : Prop :=
  forall i w, wf_variants vrs -> ts_ok_variants 256 vrs -> ty_variant vrs i w -> ts_val_variant vrs i w ->
  exists bs, enc_variant vrs i w = Ok bs /\ ts_enc_variant vrs i w = Ok bs /\
    (blen bs < 2 ^ 64 ->
     ts_dec_variant vrs (N.of_nat i) bs = Ok (i, norm_variant vrs i w)).

Lemma ts_rep_roundtrip rep b :
  T_base b -> forall w, wf_base b -> ts_ok 256 b -> ty_rep rep b w -> ts_val_rep rep b w ->
  exists bs, enc_rep rep b w = Ok bs /\ ts_enc_rep rep b w = Ok bs /\
    (rep = false -> match b with BPrim p => size_ok p bs | _ => True end) /\
    (bs = [] <-> is_empty w = true) /\
    (blen bs < 2 ^ 64 -> ts_dec_rep rep b bs = Ok (norm_rep rep b w)).
Proof.
  intros IH w Hwf Hts Hty Hc.
  destruct rep; unfold enc_rep, ts_enc_rep, ts_dec_rep, norm_rep, ty_rep, ts_val_rep in *.
  - destruct w as [| | | |ws| | | | |]; try contradiction.
    destruct (ts_list_roundtrip b (norm b) ws) as (bs & E & E' & N0 & D).
    { rewrite Forall_forall in *. intros u Hin.
      destruct (Hc u Hin) as (Cu & Su).
      destruct (IH u Hwf Hts (Hty u Hin) Cu) as (x & Ex & Ex' & Sx & _ & Dx).
      exists x. repeat split; auto.
      destruct b as [p| |]; auto. destruct p; auto.
      specialize (Hty u Hin). cbn in Hty. destruct u; try contradiction.
      cbn in Ex. injection Ex as <-. exact Su. }
    exists bs. split; [exact E|]. split; [exact E'|]. split; [discriminate|]. split; [|exact D].
    rewrite N0. destruct ws; cbn; split; congruence.
  - destruct (IH w Hwf Hts Hty Hc) as (bs & E & E' & S & N0 & D).
    exists bs. auto.
Qed.

Lemma rep_flag rep b :
  rep && is_enum b = false ->
  rep && negb (match b with BEnum _ => true | _ => false end) = rep.
Proof. destruct rep, b; cbn; congruence. Qed.

Lemma ts_buffer_ok id sz x : id < 65536 -> ts_buffer id sz x = Ok (value_buffer id sz x).
Proof. intros. unfold ts_buffer. destruct (N.ltb_spec id 65536); [reflexivity|lia]. Qed.

Theorem ts_roundtrip_gen :
  (forall b, T_base b) /\ (forall fs, T_fields fs) /\ (forall vrs, T_variants vrs).
Proof.
  apply ty_mut; unfold T_base, T_fields, T_variants.
  - intros p v _ _ Ht Hp. destruct (ts_prim_roundtrip p v Ht Hp) as (bs & E & E' & D & S & N0).
    exists bs. cbn. auto.
  - (* struct *)
    intros fs IH v (Hnd & Hwf) Hts Ht Hc.
    destruct v as [| | | | |vs| | | |]; cbn in Ht; try contradiction.
    destruct (IH vs Hwf Hts Ht Hc) as (bs & E & E' & N0 & D).
    exists bs. split; [exact E|]. split; [exact E'|]. split; [exact I|]. split.
    { rewrite N0. destruct vs; cbn; split; congruence. }
    intros Hlt. destruct (D Hlt) as (segs & -> & Hok & H8 & Hids & Hdec).
    cbn [ts_dec_base norm]. rewrite ts_storage_new_ser by auto. cbn [bind].
    rewrite Hdec; [reflexivity|].
    intros s Hin. rewrite sget_last. apply last_body_in; auto.
    rewrite Hids. auto.
  - (* enum *)
    intros vrs IH v (Hcnt & Hwf) Hts Ht Hc.
    destruct v as [| | | | | |i w| | |]; cbn in Ht, Hc; try contradiction.
    destruct (IH i w Hwf Hts Ht Hc) as (bs & E & E' & D).
    assert (Hi : (i < variant_count vrs)%nat).
    { clear - Ht. revert i Ht. induction vrs as [|r b vrs IH]; intros i Ht; cbn in *; [tauto|].
      destruct i; [lia|]. apply IH in Ht. lia. }
    exists (le 2 (N.of_nat i) ++ bs). cbn [enc_base ts_enc_base]. rewrite E, E'. cbn [bind].
    split; [reflexivity|]. split.
    { destruct (N.ltb_spec (N.of_nat i) 65536); [reflexivity|lia]. }
    split; [exact I|].
    split; [split; [discriminate|cbn; discriminate]|].
    intros Hlt. rewrite blen_app, blen_le in Hlt.
    cbn [ts_dec_base]. rewrite take_app by apply le_length.
    rewrite unle_le_small by (change (256 ^ N.of_nat 2) with 65536; lia).
    rewrite D by lia. reflexivity.
  - (* no more fields *)
    intros vs _ _ Ht _. destruct vs; cbn in Ht; try contradiction.
    exists []. split; [reflexivity|]. split; [reflexivity|]. split; [tauto|]. intros _. exists [].
    repeat split; auto.
  - (* field *)
    intros id opt rep b IHb fs IHfs vs (Hid & _ & Hwb & Hwf) (H8 & Hre & Htb & Htf) Ht Hc.
    destruct vs as [|v vs]; cbn in Ht; try contradiction.
    destruct Ht as (Hv & Ht). cbn in Hc. destruct Hc as (Hcv & Hc).
    destruct (IHfs vs Hwf Htf Ht Hc) as (ys & Ey & Ey' & _ & Dy).
    assert (F : exists (x : bytes) (s : seg),
      (match opt, v with
       | true, VNone => Ok (empty_buffer_val id)
       | true, VSome w => do x <- enc_rep rep b w; Ok (value_buffer id (size_class rep b x) x)
       | true, _ => Err EIll
       | false, w => do x <- enc_rep rep b w; Ok (value_buffer id (size_class rep b x) x)
       end) = Ok x /\
      (match opt, v with
       | true, VNone => ts_buffer id (E8 0) []
       | true, VSome w => do x <- ts_enc_rep rep b w; ts_buffer id (size_class rep b x) x
       | true, _ => Err EIll
       | false, w => do x <- ts_enc_rep rep b w; ts_buffer id (size_class rep b x) x
       end) = Ok x /\ x <> [] /\
      (blen x < 2 ^ 64 -> x = ser_seg s /\ seg_ok s /\ s_id s = id /\
        (if opt then
           match s_body s with
           | [] => Ok VNone
           | _ => do w <- ts_dec_rep rep b (s_body s); Ok (VSome w)
           end
         else match b, s_body s with
              | BEnum _, [] => Ok VDefaults
              | _, _ => ts_dec_rep rep b (s_body s)
              end) =
        Ok (match opt, v with
            | true, VSome w => norm_opt w (norm_rep rep b w)
            | true, _ => v
            | false, w => norm_rep rep b w
            end))).
    { destruct opt.
      - destruct v as [| | | | | | | | |w]; try contradiction.
        + destruct (empty_seg id Hid) as (E & O).
          exists (empty_buffer_val id), (mkSeg id 1 []).
          split; [reflexivity|]. split; [apply ts_buffer_ok; auto|].
          split; [discriminate|]. intros _.
          repeat split; auto.
        + destruct (ts_rep_roundtrip rep b IHb w Hwb Htb Hv Hcv) as (x & Ex & Ex' & Sx & N0 & Dx).
          destruct (N.ltb_spec (blen x) (2 ^ 64)) as [L|L].
          * destruct (value_buffer_seg rep b id x Hid L Sx) as (wd & Es & Os).
            exists (value_buffer id (size_class rep b x) x), (mkSeg id wd x).
            rewrite Ex, Ex'. cbn [bind]. split; [reflexivity|].
            split; [apply ts_buffer_ok; auto|]. split; [discriminate|].
            intros _. split; [auto|]. split; [auto|]. split; [auto|].
            cbn [s_body]. unfold norm_opt. destruct x as [|c x].
            -- destruct N0 as (N0 & _). rewrite N0 by auto. reflexivity.
            -- destruct (is_empty w) eqn:Ew.
               { destruct N0 as (_ & N0). discriminate (N0 eq_refl). }
               rewrite Dx by auto. reflexivity.
          * exists (value_buffer id (size_class rep b x) x), (mkSeg id 8 x).
            rewrite Ex, Ex'. cbn [bind]. split; [reflexivity|].
            split; [apply ts_buffer_ok; auto|]. split; [discriminate|].
            intros C. pose proof (value_buffer_blen id (size_class rep b x) x). lia.
      - destruct (ts_rep_roundtrip rep b IHb v Hwb Htb Hv Hcv) as (x & Ex & Ex' & Sx & N0 & Dx).
        destruct (N.ltb_spec (blen x) (2 ^ 64)) as [L|L].
        + destruct (value_buffer_seg rep b id x Hid L Sx) as (wd & Es & Os).
          exists (value_buffer id (size_class rep b x) x), (mkSeg id wd x).
          rewrite Ex, Ex'. cbn [bind]. split; [reflexivity|].
          split; [apply ts_buffer_ok; auto|]. split; [discriminate|].
          intros _. split; [auto|]. split; [auto|]. split; [auto|].
          cbn [s_body]. rewrite <- Dx by auto.
          destruct b as [| |vrs]; try reflexivity. destruct x; [|reflexivity].
          destruct rep; [discriminate|]. exfalso.
          unfold ty_rep in Hv. cbn in Hv. destruct v; try contradiction.
          * destruct N0 as (N0 & _). specialize (N0 eq_refl). discriminate N0.
        + exists (value_buffer id (size_class rep b x) x), (mkSeg id 8 x).
          rewrite Ex, Ex'. cbn [bind]. split; [reflexivity|].
          split; [apply ts_buffer_ok; auto|]. split; [discriminate|].
          intros C. pose proof (value_buffer_blen id (size_class rep b x) x). lia. }
    destruct F as (x & s & Ex & Ex' & Nx & Fx).
    exists (x ++ ys). split.
    { cbn [enc_fields].
      transitivity (do x0 <-
        (match opt, v with
         | true, VNone => Ok (empty_buffer_val id)
         | true, VSome w => do x <- enc_rep rep b w; Ok (value_buffer id (size_class rep b x) x)
         | true, _ => Err EIll
         | false, w => do x <- enc_rep rep b w; Ok (value_buffer id (size_class rep b x) x)
         end); do y <- enc_fields fs vs; Ok (x0 ++ y)).
      { reflexivity. }
      rewrite Ex. cbn [bind]. rewrite Ey. reflexivity. }
    split.
    { cbn [ts_enc_fields]. rewrite rep_flag by auto.
      transitivity (do x0 <-
        (match opt, v with
         | true, VNone => ts_buffer id (E8 0) []
         | true, VSome w => do x <- ts_enc_rep rep b w; ts_buffer id (size_class rep b x) x
         | true, _ => Err EIll
         | false, w => do x <- ts_enc_rep rep b w; ts_buffer id (size_class rep b x) x
         end); do y <- ts_enc_fields fs vs; Ok (x0 ++ y)).
      { reflexivity. }
      rewrite Ex'. cbn [bind]. rewrite Ey'. reflexivity. }
    split.
    { split; [|discriminate]. destruct x; [congruence|discriminate]. }
    intros Hlt. rewrite blen_app in Hlt.
    destruct (Fx ltac:(lia)) as (Es & Os & Is & Ds).
    destruct (Dy ltac:(lia)) as (segs & -> & Hok & H8s & Hids & Hdec).
    exists (s :: segs). split; [cbn; rewrite Es; reflexivity|].
    split; [constructor; auto|]. split; [constructor; [rewrite Is|]; auto|].
    split; [cbn; rewrite Is, Hids; reflexivity|].
    intros m Hm. cbn [ts_dec_fields]. rewrite rep_flag by auto.
    rewrite <- Is at 1. rewrite Hm by (left; reflexivity).
    rewrite Hdec by (intros; apply Hm; right; auto).
    transitivity (do v0 <-
       (if opt then
           match s_body s with
           | [] => Ok VNone
           | _ => do w <- ts_dec_rep rep b (s_body s); Ok (VSome w)
           end
         else match b, s_body s with
              | BEnum _, [] => Ok VDefaults
              | _, _ => ts_dec_rep rep b (s_body s)
              end); Ok (v0 :: norm_fields fs vs)).
    { destruct opt, (s_body s), b; reflexivity. }
    rewrite Ds. reflexivity.
  - intros i w _ _ Ht. contradiction.
  - (* variant *)
    intros rep b IHb vrs IHv i w (Hwb & Hwf) (Hvk & Htb & Htf) Ht Hc.
    destruct i as [|i].
    + destruct (ts_rep_roundtrip rep b IHb w Hwb Htb Ht Hc) as (x & Ex & Ex' & _ & N0 & Dx).
      exists x. split; [exact Ex|]. split.
      { cbn [ts_enc_variant]. destruct b; try contradiction.
        - exact Ex'.
        - subst rep. exact Ex'. }
      intros L. cbn [ts_dec_variant N.of_nat]. rewrite N.eqb_refl.
      transitivity (do w0 <- ts_dec_rep rep b x; @Ok _ err (O, w0)).
      { destruct b; try contradiction; try reflexivity. subst rep. reflexivity. }
      rewrite Dx by auto. reflexivity.
    + destruct (IHv i w Hwf Htf Ht Hc) as (x & Ex & Ex' & Dx).
      exists x. split; [exact Ex|]. split; [exact Ex'|]. intros L.
      cbn [ts_dec_variant]. destruct (N.eqb_spec (N.of_nat (S i)) 0); [lia|].
      replace (N.of_nat (S i) - 1) with (N.of_nat i) by lia.
      rewrite Dx by auto. reflexivity.
Qed.

(** ** Agreement of the two encoders, without the limits of the TypeScript
    decoder: any u16 field id, any string *)

Lemma ts_enc_agree st :
  (forall b v, ts_ok 65536 b -> wf_base b -> ty_base b v -> canon st b v ->
     ts_enc_base b v = enc_base b v) /\
  (forall fs vs, ts_ok_fields 65536 fs -> wf_fields fs -> ty_fields fs vs -> canon_fields st fs vs ->
     ts_enc_fields fs vs = enc_fields fs vs) /\
  (forall vrs i w, ts_ok_variants 65536 vrs -> wf_variants vrs -> ty_variant vrs i w ->
     canon_variant st vrs i w -> ts_enc_variant vrs i w = enc_variant vrs i w).
Proof.
  assert (R : forall rep b w,
    (forall v, ts_ok 65536 b -> wf_base b -> ty_base b v -> canon st b v ->
       ts_enc_base b v = enc_base b v) ->
    ts_ok 65536 b -> wf_base b -> ty_rep rep b w -> canon_rep st rep b w ->
    ts_enc_rep rep b w = enc_rep rep b w).
  { intros rep b w IH Hk Hwf Ht Hc. destruct rep; unfold ts_enc_rep, enc_rep, ty_rep, canon_rep in *; auto.
    destruct w as [| | | |ws| | | | |]; try contradiction.
    induction Ht as [|u us Hu Hus IHu]; [reflexivity|].
    inversion Hc as [|? ? (Cu & Su) Hc']; subst.
    rewrite !enc_items_cons, IHu, IH by auto.
    destruct (enc_base b u) as [y| |] eqn:E; cbn [bind]; try reflexivity.
    destruct b as [p| |]; [destruct p|..]; cbn [ts_wrap bind wrap_item]; try reflexivity.
    cbn in Hu. destruct u; try contradiction. cbn in E. injection E as <-. cbn in Su.
    destruct (N.ltb_spec (blen s) (2 ^ 32)); [reflexivity|lia]. }
  apply ty_mut.
  - intros p v _ _ Ht _. cbn. apply ts_prim_enc; auto.
  - intros fs IH v Hk (Hnd & Hwf) Ht Hc. destruct v; cbn in Ht; try contradiction.
    cbn [ts_enc_base enc_base]. apply IH; auto.
  - intros vrs IH v Hk (Hcnt & Hwf) Ht Hc. destruct v as [| | | | | |i w| | |]; cbn in Ht, Hc; try contradiction.
    assert (Hi : (i < variant_count vrs)%nat).
    { clear - Ht. revert i Ht. induction vrs as [|r b vrs IH]; intros i Ht; cbn in *; [tauto|].
      destruct i; [lia|]. apply IH in Ht. lia. }
    cbn [ts_enc_base enc_base]. rewrite IH by tauto.
    destruct (N.ltb_spec (N.of_nat i) 65536); [reflexivity|lia].
  - intros vs _ _ _ _. destruct vs; reflexivity.
  - intros id opt rep b IHb fs IHfs vs (Hid & Hre & Htb & Htf) (_ & _ & Hwb & Hwf) Ht Hc.
    destruct vs as [|v vs]; cbn in Ht; try contradiction.
    destruct Ht as (Hv & Ht). cbn in Hc. destruct Hc as (Hcv & Hc).
    cbn [ts_enc_fields enc_fields]. rewrite rep_flag by auto. rewrite IHfs by auto.
    f_equal. destruct opt.
    + destruct v as [| | | | | | | | |w]; try contradiction.
      * apply ts_buffer_ok; auto.
      * destruct Hcv as (_ & Hcv). pose proof (R rep b w IHb Htb Hwb Hv Hcv) as E.
        unfold ts_enc_rep, enc_rep in E. rewrite E.
        match goal with |- bind ?e _ = _ => destruct e; cbn [bind]; auto end.
        apply ts_buffer_ok; auto.
    + pose proof (R rep b v IHb Htb Hwb Hv Hcv) as E.
      unfold ts_enc_rep, enc_rep in E. rewrite E.
      match goal with |- bind ?e _ = _ => destruct e; cbn [bind]; auto end.
      apply ts_buffer_ok; auto.
  - intros i w _ _ Ht. contradiction.
  - intros rep b IHb vrs IHv i w (Hvk & Htb & Htf) (Hwb & Hwf) Ht Hc. destruct i as [|i].
    + pose proof (R rep b w IHb Htb Hwb Ht Hc) as E.
      cbn [ts_enc_variant enc_variant]. unfold ts_enc_rep, enc_rep in E.
      destruct b; try contradiction; [exact E|]. subst rep. exact E.
    + cbn [ts_enc_variant enc_variant]. apply IHv; auto.
Qed.
