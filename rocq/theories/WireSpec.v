(** Specification vocabulary for the wire codec: typing of values, well-formed
    schemas, the values that survive a round trip, and an independent
    description of serialized field lists.  Nothing here refers to the encoder
    or decoder. *)
From Coq Require Import List NArith ZArith Lia Bool.
From Verif Require Import Bytes Utf8 WireModel.
Import ListNotations.
Open Scope N_scope.

(** ** Typing *)

Definition ty_prim (p : prim) (v : val) : Prop :=
  match p, v with
  | U8, VInt z => (0 <= z < 2 ^ 8)%Z
  | U16, VInt z => (0 <= z < 2 ^ 16)%Z
  | U32, VInt z => (0 <= z < 2 ^ 32)%Z
  | U64, VInt z => (0 <= z < 2 ^ 64)%Z
  | I8, VInt z => (- 2 ^ 7 <= z < 2 ^ 7)%Z
  | I16, VInt z => (- 2 ^ 15 <= z < 2 ^ 15)%Z
  | I32, VInt z => (- 2 ^ 31 <= z < 2 ^ 31)%Z
  | I64, VInt z => (- 2 ^ 63 <= z < 2 ^ 63)%Z
  | F32, VFloat n => n < 2 ^ 32
  | F64, VFloat n => n < 2 ^ 64
  | PBool, VBool _ => True
  | PStr, VStr s => valid_utf8 s
  | _, _ => False
  end.

Fixpoint ty_base (b : base) (v : val) {struct b} : Prop :=
  match b with
  | BPrim p => ty_prim p v
  | BStruct fs => match v with VStruct vs => ty_fields fs vs | _ => False end
  | BEnum vrs =>
    match v with
    | VVariant i w => ty_variant vrs i w
    | VDefaults => True
    | _ => False
    end
  end
with ty_fields (fs : fields) (vs : list val) {struct fs} : Prop :=
  match fs, vs with
  | FNil, [] => True
  | FCons _ opt rep b fs, v :: vs =>
    (match opt, v with
     | true, VNone => True
     | true, VSome w =>
       if rep then match w with VList ws => Forall (ty_base b) ws | _ => False end
       else ty_base b w
     | true, _ => False
     | false, w =>
       if rep then match w with VList ws => Forall (ty_base b) ws | _ => False end
       else ty_base b w
     end) /\ ty_fields fs vs
  | _, _ => False
  end
with ty_variant (vrs : variants) (i : nat) (w : val) {struct vrs} : Prop :=
  match vrs, i with
  | VNil, _ => False
  | VCons rep b _, O =>
    if rep then match w with VList ws => Forall (ty_base b) ws | _ => False end
    else ty_base b w
  | VCons _ _ vrs, S i => ty_variant vrs i w
  end.

Definition ty_rep (rep : bool) (b : base) (w : val) : Prop :=
  if rep then match w with VList ws => Forall (ty_base b) ws | _ => False end
  else ty_base b w.

(** ** Well-formed schemas

    Field ids are distinct u16 values, enums have at most 2^16 variants (the
    generated code does not compile otherwise), optional arrays of enums are
    excluded (the generated code does not compile, mod.rs l.98-133). *)
Fixpoint field_ids (fs : fields) : list N :=
  match fs with
  | FNil => []
  | FCons id _ _ _ fs => id :: field_ids fs
  end.

(** the [k]-th field declaration *)
Fixpoint nth_field (fs : fields) (k : nat) : option (N * bool * bool * base) :=
  match fs, k with
  | FNil, _ => None
  | FCons id o r b _, O => Some (id, o, r, b)
  | FCons _ _ _ _ fs, S k => nth_field fs k
  end.

Fixpoint variant_count (vrs : variants) : nat :=
  match vrs with
  | VNil => O
  | VCons _ _ vrs => S (variant_count vrs)
  end.

Definition is_enum (b : base) : bool :=
  match b with BEnum _ => true | _ => false end.

Fixpoint wf_base (b : base) : Prop :=
  match b with
  | BPrim _ => True
  | BStruct fs => NoDup (field_ids fs) /\ wf_fields fs
  | BEnum vrs => (N.of_nat (variant_count vrs) <= 65536) /\ wf_variants vrs
  end
with wf_fields (fs : fields) : Prop :=
  match fs with
  | FNil => True
  | FCons id opt rep b fs =>
    id < 65536 /\ (opt && rep && is_enum b = false) /\ wf_base b /\ wf_fields fs
  end
with wf_variants (vrs : variants) : Prop :=
  match vrs with
  | VNil => True
  | VCons _ b vrs => wf_base b /\ wf_variants vrs
  end.

(** ** Values without zero-length parts in the two places where the wire format
    cannot represent them *)

(** zero-length values: empty strings, empty arrays, structs without fields *)
Definition is_empty (v : val) : bool :=
  match v with
  | VStr [] | VList [] | VStruct [] => true
  | _ => false
  end.

Definition short_str (b : base) (v : val) : Prop :=
  match b, v with
  | BPrim PStr, VStr s => blen s < 2 ^ 32
  | _, _ => True
  end.

(** [canon strict b v]: no [Defaults], no enum payload of length zero, strings
    inside string arrays shorter than 2^32 bytes; if [strict], also no present
    optional of length zero. *)
Fixpoint canon (strict : bool) (b : base) (v : val) {struct b} : Prop :=
  match b with
  | BPrim _ => True
  | BStruct fs => match v with VStruct vs => canon_fields strict fs vs | _ => True end
  | BEnum vrs =>
    match v with
    | VVariant i w => is_empty w = false /\ canon_variant strict vrs i w
    | VDefaults => False
    | _ => True
    end
  end
with canon_fields (strict : bool) (fs : fields) (vs : list val) {struct fs} : Prop :=
  match fs, vs with
  | FCons _ opt rep b fs, v :: vs =>
    (match opt, v with
     | true, VSome w =>
       (strict = true -> is_empty w = false) /\
       (if rep
        then match w with
             | VList ws => Forall (fun u => canon strict b u /\ short_str b u) ws
             | _ => True
             end
        else canon strict b w)
     | true, _ => True
     | false, w =>
       if rep
       then match w with
            | VList ws => Forall (fun u => canon strict b u /\ short_str b u) ws
            | _ => True
            end
       else canon strict b w
     end) /\ canon_fields strict fs vs
  | _, _ => True
  end
with canon_variant (strict : bool) (vrs : variants) (i : nat) (w : val) {struct vrs} : Prop :=
  match vrs, i with
  | VNil, _ => True
  | VCons rep b _, O =>
    if rep
    then match w with
         | VList ws => Forall (fun u => canon strict b u /\ short_str b u) ws
         | _ => True
         end
    else canon strict b w
  | VCons _ _ vrs, S i => canon_variant strict vrs i w
  end.

Definition canon_rep (strict : bool) (rep : bool) (b : base) (w : val) : Prop :=
  if rep
  then match w with
       | VList ws => Forall (fun u => canon strict b u /\ short_str b u) ws
       | _ => True
       end
  else canon strict b w.

(** [norm b v]: what a receiver sees: present optionals of length zero become
    absent, everything else is unchanged. *)
Definition norm_opt (w : val) (w' : val) : val :=
  if is_empty w then VNone else VSome w'.

Fixpoint norm (b : base) (v : val) {struct b} : val :=
  match b with
  | BPrim _ => v
  | BStruct fs => match v with VStruct vs => VStruct (norm_fields fs vs) | _ => v end
  | BEnum vrs =>
    match v with VVariant i w => VVariant i (norm_variant vrs i w) | _ => v end
  end
with norm_fields (fs : fields) (vs : list val) {struct fs} : list val :=
  match fs, vs with
  | FCons _ opt rep b fs, v :: vs =>
    (match opt, v with
     | true, VSome w =>
       norm_opt w (if rep
                   then match w with VList ws => VList (map (norm b) ws) | _ => w end
                   else norm b w)
     | true, _ => v
     | false, w =>
       if rep then match w with VList ws => VList (map (norm b) ws) | _ => w end
       else norm b w
     end) :: norm_fields fs vs
  | _, _ => vs
  end
with norm_variant (vrs : variants) (i : nat) (w : val) {struct vrs} : val :=
  match vrs, i with
  | VNil, _ => w
  | VCons rep b _, O =>
    if rep then match w with VList ws => VList (map (norm b) ws) | _ => w end
    else norm b w
  | VCons _ _ vrs, S i => norm_variant vrs i w
  end.

Definition norm_rep (rep : bool) (b : base) (w : val) : val :=
  if rep then match w with VList ws => VList (map (norm b) ws) | _ => w end
  else norm b w.

(** ** Serialized field lists

    The documented layout (comment in protocol.storage.rs l.20-23):
    id (2 bytes), rank (1 byte: number of bits of the length), length, body. *)
Record seg := mkSeg { s_id : N; s_width : nat; s_body : bytes }.

Definition seg_ok (s : seg) : Prop :=
  s_id s < 65536 /\
  (s_width s = 1%nat \/ s_width s = 2%nat \/ s_width s = 4%nat \/ s_width s = 8%nat) /\
  blen (s_body s) < 256 ^ N.of_nat (s_width s).

Definition ser_seg (s : seg) : bytes :=
  le 2 (s_id s) ++ le 1 (8 * N.of_nat (s_width s)) ++
  le (s_width s) (blen (s_body s)) ++ s_body s.

Definition ser (segs : list seg) : bytes := flat_map ser_seg segs.

(** the body a field list gives to an id: the last occurrence counts *)
Definition last_body (segs : list seg) (id : N) : option bytes :=
  match find (fun s => s_id s =? id) (rev segs) with
  | Some s => Some (s_body s)
  | None => None
  end.
