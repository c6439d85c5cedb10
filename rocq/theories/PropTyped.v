(** Property C46 (what the Rust decoder delivers is well typed) and two
    additions to C03. *)
From Coq Require Import List NArith ZArith Lia Bool.
From Verif Require Import Bytes Utf8 WireModel WireSpec WireProofs WireTheorems.
Import ListNotations.
Open Scope N_scope.

(** No enum value anywhere inside [v] is the placeholder variant [Defaults]. *)
Fixpoint no_defaults (v : val) : bool :=
  match v with
  | VDefaults => false
  | VList vs | VStruct vs => (fix go l := match l with [] => true | x :: l => no_defaults x && go l end) vs
  | VVariant _ w | VSome w => no_defaults w
  | _ => true
  end.

Definition fine (b : base) (v : val) : Prop := ty_base b v /\ no_defaults v = true.

Definition fine_rep (rep : bool) (b : base) (w : val) : Prop :=
  ty_rep rep b w /\ no_defaults w = true.

Lemma chunk_bound c k : length c = k -> (Z.of_N (unle c) < 2 ^ (8 * Z.of_nat k))%Z.
Proof.
  intros H. pose proof (unle_bound c) as B. unfold blen in B. rewrite H in B.
  replace (2 ^ (8 * Z.of_nat k))%Z with (Z.of_N (256 ^ N.of_nat k)); [lia|].
  rewrite N2Z.inj_pow, Z.pow_mul_r by lia. rewrite nat_N_Z. reflexivity.
Qed.

Lemma signed_bound c k : length c = k -> (0 < k)%nat ->
  (- 2 ^ (8 * Z.of_nat k - 1) <= unle_signed c < 2 ^ (8 * Z.of_nat k - 1))%Z.
Proof.
  intros H Hk. pose proof (chunk_bound c k H) as B. unfold unle_signed. rewrite H.
  replace (2 ^ (8 * Z.of_nat k))%Z with (2 * 2 ^ (8 * Z.of_nat k - 1))%Z in *.
  2:{ rewrite <- Z.pow_succ_r by lia. f_equal. lia. }
  destruct (Z.ltb_spec (Z.of_N (unle c)) (2 ^ (8 * Z.of_nat k - 1))); lia.
Qed.

Lemma dec_prim_fine p buf v : dec_prim p buf = Ok v -> fine (BPrim p) v.
Proof.
  unfold dec_prim, fine. cbn [ty_base].
  destruct p; cbn [prim_size]; intros H;
    try (injection H as <-; cbn [prim_val ty_prim no_defaults]; split;
         [apply lossy_always_valid|reflexivity]);
    match type of H with context [take ?k buf] => destruct (take k buf) as [[c r]|] eqn:Et end;
    try discriminate; injection H as <-; apply take_spec in Et; destruct Et as [_ Hl];
    cbn [prim_val ty_prim no_defaults]; (split; [|reflexivity]);
    try exact I;
    try (pose proof (chunk_bound _ _ Hl); lia);
    try (pose proof (signed_bound _ _ Hl); lia).
Qed.

Lemma dec_items_fine b k item fuel : (forall x v, item x = Ok v -> fine b v) ->
  forall buf vs, dec_items k item fuel buf = Ok vs ->
    Forall (ty_base b) vs /\ no_defaults (VList vs) = true.
Proof.
  intros Hi. induction fuel as [|f IH]; intros buf vs H; destruct buf as [|x buf];
    cbn [dec_items] in H; try discriminate; try (injection H as <-; split; [constructor|reflexivity]).
  destruct (take k (x :: buf)) as [[lb r]|]; [|discriminate].
  destruct (2 ^ 64 <=? N.of_nat k + unle lb); [discriminate|].
  destruct (blen r <? unle lb); [discriminate|].
  destruct (item (firstn (N.to_nat (unle lb)) r)) as [v| |] eqn:Ei; cbn [bind] in H; try discriminate.
  destruct (dec_items k item f _) as [ws| |] eqn:Er; cbn [bind] in H; try discriminate.
  injection H as <-. apply Hi in Ei. apply IH in Er. destruct Ei, Er. split; [constructor; auto|].
  cbn [no_defaults]. rewrite H0. cbn [andb]. auto.
Qed.

Lemma dec_chunks_fine b k item fuel : (forall x v, item x = Ok v -> fine b v) ->
  forall buf vs, dec_chunks k item fuel buf = Ok vs ->
    Forall (ty_base b) vs /\ no_defaults (VList vs) = true.
Proof.
  intros Hi. induction fuel as [|f IH]; intros buf vs H; destruct buf as [|x buf];
    cbn [dec_chunks] in H; try discriminate; try (injection H as <-; split; [constructor|reflexivity]).
  destruct (take k (x :: buf)) as [[c r]|]; [|discriminate].
  destruct (item c) as [v| |] eqn:Ei; cbn [bind] in H; try discriminate.
  destruct (dec_chunks k item f r) as [ws| |] eqn:Er; cbn [bind] in H; try discriminate.
  injection H as <-. apply Hi in Ei. apply IH in Er. destruct Ei, Er. split; [constructor; auto|].
  cbn [no_defaults]. rewrite H0. cbn [andb]. auto.
Qed.

Lemma dec_rep_fine (rep : bool) b : (forall x v, dec_base b x = Ok v -> fine b v) ->
  forall buf w, (if rep then dec_list b (dec_base b) buf else dec_base b buf) = Ok w ->
    fine_rep rep b w.
Proof.
  intros Hb buf w H. unfold fine_rep. destruct rep; cbn [ty_rep]; [|exact (Hb _ _ H)].
  unfold dec_list in H.
  match type of H with bind ?m _ = _ => destruct m as [vs| |] eqn:Em end;
    cbn [bind] in H; try discriminate.
  injection H as <-.
  destruct b as [p|fs|vrs]; [destruct (prim_size p)|..];
    first [eapply dec_items_fine; [exact Hb|exact Em] | eapply dec_chunks_fine; [exact Hb|exact Em]].
Qed.

Definition D_base (b : base) := forall buf v, dec_base b buf = Ok v -> fine b v.
Definition D_fields (fs : fields) := forall m vs, dec_fields fs m = Ok vs ->
  ty_fields fs vs /\ no_defaults (VStruct vs) = true.
Definition D_variants (vrs : variants) := forall i buf j w, dec_variant vrs i buf = Ok (j, w) ->
  N.of_nat j = i /\ ty_variant vrs j w /\ no_defaults w = true.

Lemma decode_fine :
  (forall b, D_base b) /\ (forall fs, D_fields fs) /\ (forall vrs, D_variants vrs).
Proof.
  apply ty_mut; unfold D_base, D_fields, D_variants.
  - intros p buf v H. apply dec_prim_fine in H. exact H.
  - intros fs IH buf v H. cbn [dec_base] in H.
    destruct (storage_new buf) as [m| |]; cbn [bind] in H; try discriminate.
    destruct (dec_fields fs m) as [vs| |] eqn:Ef; cbn [bind] in H; try discriminate.
    injection H as <-. apply IH in Ef. exact Ef.
  - intros vrs IH buf v H. cbn [dec_base] in H.
    destruct (blen buf <=? 2); [discriminate|].
    destruct (dec_variant vrs _ _) as [[i w]| |] eqn:Ev; cbn [bind] in H; try discriminate.
    injection H as <-. apply IH in Ev. destruct Ev as (_ & Ht & Hd). split; auto.
  - intros m vs H. cbn [dec_fields] in H. injection H as <-. split; [exact I|reflexivity].
  - intros id opt rep b IHb fs IHfs m vs H. cbn [dec_fields] in H.
    match type of H with bind ?m _ = _ => destruct m as [v| |] eqn:Ev end;
      cbn [bind] in H; try discriminate.
    destruct (dec_fields fs m) as [ws| |] eqn:Ef; cbn [bind] in H; try discriminate.
    injection H as <-. apply IHfs in Ef. destruct Ef as [Ht Hd].
    destruct (sget m id) as [buf|]; [|discriminate].
    destruct opt.
    + destruct buf as [|x buf].
      * injection Ev as <-. split; [split; [exact I|exact Ht]|exact Hd].
      * match type of Ev with bind ?m _ = _ => destruct m as [w| |] eqn:Ew end;
          cbn [bind] in Ev; try discriminate.
        injection Ev as <-. apply (dec_rep_fine rep b IHb) in Ew. destruct Ew as [Hw Hn].
        cbn [ty_fields no_defaults]. split; [split; [exact Hw|exact Ht]|].
        rewrite Hn. exact Hd.
    + apply (dec_rep_fine rep b IHb) in Ev. destruct Ev as [Hw Hn].
      cbn [ty_fields no_defaults]. split; [split; [exact Hw|exact Ht]|].
      rewrite Hn. exact Hd.
  - intros i buf j w H. discriminate H.
  - intros rep b IHb vrs IHv i buf j w H. cbn [dec_variant] in H.
    destruct (N.eqb_spec i 0) as [->|Hi].
    + match type of H with bind ?m _ = _ => destruct m as [x| |] eqn:Ex end;
        cbn [bind] in H; try discriminate.
      injection H as <- <-. apply (dec_rep_fine rep b IHb) in Ex. destruct Ex as [Hw Hn].
      split; [reflexivity|]. split; [exact Hw|exact Hn].
    + destruct (dec_variant vrs (i - 1) buf) as [[j' x]| |] eqn:Ex; cbn [bind] in H; try discriminate.
      injection H as <- <-. apply IHv in Ex. destruct Ex as (Hj & Hw & Hn).
      split; [lia|]. split; [exact Hw|exact Hn].
Qed.

(** ** C46 *)
Theorem C46_delivered_values_typed : forall b buf v,
  dec_base b buf = Ok v -> ty_base b v /\ no_defaults v = true.
Proof. exact (proj1 decode_fine). Qed.
Print Assumptions C46_delivered_values_typed.

(** A delivered message has the id of the header, this id is declared, and its
    value is of the declared type. *)
Theorem C46_delivered_message_declared : forall table id buf i v,
  get_msg table id buf = Ok (i, v) ->
  i = id /\ exists b, In (id, b) table /\ ty_base b v /\ no_defaults v = true /\
    dec_base b buf = Ok v.
Proof.
  intros table id buf i v. induction table as [|[j b] table IH]; cbn [get_msg]; [discriminate|].
  destruct (N.eqb_spec j id) as [->|_]; intros H.
  - destruct (dec_base b buf) as [w| |] eqn:Ed; cbn [bind] in H; try discriminate.
    injection H as <- <-. split; [reflexivity|]. exists b.
    pose proof (proj1 decode_fine b buf w Ed) as [H1 H2].
    split; [left; reflexivity|]. auto.
  - destruct (IH H) as [Hi (b' & Hin & Hb)]. split; auto. exists b'. split; [right; auto|auto].
Qed.
Print Assumptions C46_delivered_message_declared.

(** An undeclared message id and an undeclared variant index are errors. *)
Theorem C46_undeclared_rejected : forall table id buf,
  ~ In id (map fst table) -> get_msg table id buf = Err EUnknownMsg.
Proof.
  intros table id buf. induction table as [|[j b] table IH]; cbn [get_msg map fst In]; auto.
  intros H. destruct (N.eqb_spec j id); [tauto|]. apply IH. tauto.
Qed.
Print Assumptions C46_undeclared_rejected.

Fixpoint variants_count (vrs : variants) : nat :=
  match vrs with VNil => O | VCons _ _ vrs => S (variants_count vrs) end.

Theorem C46_undeclared_variant_rejected : forall vrs i payload,
  (variants_count vrs <= i)%nat -> N.of_nat i < 2 ^ 16 ->
  exists e, dec_base (BEnum vrs) (le 2 (N.of_nat i) ++ payload) = Err e.
Proof.
  intros vrs i payload H Hi. cbn [dec_base].
  destruct (blen (le 2 (N.of_nat i) ++ payload) <=? 2); [eauto|].
  exists EVariant.
  replace (firstn 2 (le 2 (N.of_nat i) ++ payload)) with (le 2 (N.of_nat i)) by reflexivity.
  replace (skipn 2 (le 2 (N.of_nat i) ++ payload)) with payload by reflexivity.
  rewrite unle_le_small by (exact Hi). clear Hi.
  enough (He : dec_variant vrs (N.of_nat i) payload = Err EVariant) by (rewrite He; reflexivity).
  revert i H. induction vrs as [|rep b vrs IH]; intros i H; cbn [dec_variant]; auto.
  cbn [variants_count] in H. destruct i as [|i]; [lia|].
  destruct (N.eqb_spec (N.of_nat (S i)) 0); [lia|].
  replace (N.of_nat (S i) - 1) with (N.of_nat i) by lia. rewrite IH by lia. reflexivity.
Qed.
Print Assumptions C46_undeclared_variant_rejected.

Definition ex46 : base :=
  BStruct (FCons 1 true false (BEnum (VCons false (BPrim U8) (VCons true (BPrim I16) VNil)))
          (FCons 2 false true (BPrim PStr) FNil)).

Example C46_example :
  exists bs v, enc_base ex46 (VStruct [VSome (VVariant 1 (VList [VInt (-3)])); VList [VStr []]]) = Ok bs /\
    get_msg [(7, BPrim U8); (9, ex46)] 9 bs = Ok (9, v) /\
    v = VStruct [VSome (VVariant 1 (VList [VInt (-3)])); VList [VStr []]] /\
    get_msg [(7, BPrim U8); (9, ex46)] 8 bs = Err EUnknownMsg /\
    dec_base (BEnum (VCons false (BPrim U8) VNil)) (le 2 1 ++ [n2b 5]) = Err EVariant.
Proof.
  eexists. eexists. split; [vm_compute; reflexivity|]. split; [vm_compute; reflexivity|].
  split; [reflexivity|]. split; vm_compute; reflexivity.
Qed.

(** ** C03, the converse side: only declared variants have an encoding; the
    placeholder [Defaults] has none. *)
Theorem C03_only_variants_encode : forall vrs v bs,
  enc_base (BEnum vrs) v = Ok bs ->
  exists i w x, v = VVariant i w /\ (i < variants_count vrs)%nat /\ bs = le 2 (N.of_nat i) ++ x.
Proof.
  intros vrs v bs H. cbn [enc_base] in H. destruct v as [| | | | | |i w| | |]; try discriminate.
  destruct (enc_variant vrs i w) as [x| |] eqn:Ev; cbn [bind] in H; try discriminate.
  injection H as <-. exists i, w, x. split; [reflexivity|]. split; [|reflexivity].
  clear -Ev. revert i Ev. induction vrs as [|rep b vrs IH]; intros i Ev; [discriminate|].
  cbn [variants_count]. destruct i as [|i]; [lia|]. cbn [enc_variant] in Ev.
  apply IH in Ev. lia.
Qed.
Print Assumptions C03_only_variants_encode.

Example C03_only_variants_example :
  enc_base (BEnum (VCons false (BPrim U8) VNil)) (VVariant 0 (VInt 4)) = Ok (le 2 0 ++ [n2b 4]) /\
  enc_base (BEnum (VCons false (BPrim U8) VNil)) VDefaults = Err ENotSupported.
Proof. split; vm_compute; reflexivity. Qed.
