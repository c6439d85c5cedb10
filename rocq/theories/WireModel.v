(** Model of the generated Rust codec: the static runtime in
    cli/src/protocol/render/rust/static/ and the per-type code emitted by
    cli/src/protocol/render/rust/mod.rs. *)
From Coq Require Import List NArith ZArith Lia Bool.
From Verif Require Import Bytes Utf8.
Import ListNotations.
Open Scope N_scope.

(** ** Types

    The field/variant types the Rust renderer supports: mod.rs l.539-583
    ([get_decode_type_ref], [get_type_ref]) and l.449-472 ([enum_item_type]).
    [char], [isize], [usize] are accepted by the parser but make the renderer
    panic, so they have no counterpart here.  References to structs and enums
    are unfolded: a type can only refer to types completed earlier in the
    protocol text (see ProtoModel), so the unfolding is finite. *)
Inductive prim : Type :=
| U8 | U16 | U32 | U64 | I8 | I16 | I32 | I64 | F32 | F64 | PBool | PStr.

Inductive base : Type :=
| BPrim (p : prim)
| BStruct (fs : fields)
| BEnum (vs : variants)
with fields : Type :=
| FNil
| FCons (id : N) (opt rep : bool) (b : base) (fs : fields)
with variants : Type :=
| VNil
| VCons (rep : bool) (b : base) (vs : variants).

Scheme base_mut := Induction for base Sort Prop
with fields_mut := Induction for fields Sort Prop
with variants_mut := Induction for variants Sort Prop.
Combined Scheme ty_mut from base_mut, fields_mut, variants_mut.

(** ** Values

    Values of the generated Rust types.  Floats are bit patterns
    ([to_le_bytes]/[get_f32_le] copy bits), strings are their UTF-8 bytes. *)
Inductive val : Type :=
| VInt (z : Z)
| VFloat (bits : N)
| VBool (b : bool)
| VStr (s : bytes)
| VList (vs : list val)
| VStruct (vs : list val)
| VVariant (i : nat) (v : val)
| VDefaults                       (* the extra variant of mod.rs l.286 *)
| VNone
| VSome (v : val).

Inductive err : Type :=
| EMissing      (* "Fail get buffer" / "Buffer for property .. isn't found" *)
| EShort        (* buffer too short / trailing bytes *)
| ERank         (* "Unknown rank has been gotten" *)
| EVariant      (* "Fail to find relevant value for .." *)
| ENotSupported (* "Not supportable option" *)
| EUnknownMsg   (* "No message has been found" *)
| ERange        (* TypeScript only: number out of range *)
| EIll          (* value not of the type: excluded by rustc *)
| EFuel.        (* model artefact, proved unreachable *)

(** protocol.sizes.mod.rs l.1-12: number of bytes of a fixed-size primitive;
    [None] for strings. *)
Definition prim_size (p : prim) : option nat :=
  match p with
  | U8 | I8 | PBool => Some 1%nat
  | U16 | I16 => Some 2%nat
  | U32 | I32 | F32 => Some 4%nat
  | U64 | I64 | F64 => Some 8%nat
  | PStr => None
  end.

(** protocol.sizes.mod.rs l.13-18 [ESize] *)
Inductive esize : Type :=
| E8 (n : N) | E16 (n : N) | E32 (n : N) | E64 (n : N).

(** ** Encoding *)

(** protocol.encode.rs l.5-30 [get_value_buffer] with [Some(id)].  With [None]
    it returns the value unchanged, which is how the model writes [encode()]. *)
Definition value_buffer (id : N) (size : esize) (value : bytes) : bytes :=
  le 2 id ++
  match size with
  | E8 n => le 1 8 ++ le 1 n
  | E16 n => le 1 16 ++ le 2 n
  | E32 n => le 1 32 ++ le 4 n
  | E64 n => le 1 64 ++ le 8 n
  end ++ value.

(** protocol.encode.rs l.32-34 [get_empty_buffer_val] *)
Definition empty_buffer_val (id : N) : bytes := value_buffer id (E8 0) [].

(** [iN::to_le_bytes]: two's complement *)
Definition le_signed (k : nat) (z : Z) : bytes :=
  le k (Z.to_N (z mod 2 ^ (8 * Z.of_nat k))%Z).

(** protocol.encode.rs l.94-209: payload of a primitive *)
Definition enc_prim (p : prim) (v : val) : res bytes err :=
  match p, v with
  | U8, VInt z => Ok (le 1 (Z.to_N z))
  | U16, VInt z => Ok (le 2 (Z.to_N z))
  | U32, VInt z => Ok (le 4 (Z.to_N z))
  | U64, VInt z => Ok (le 8 (Z.to_N z))
  | I8, VInt z => Ok (le_signed 1 z)
  | I16, VInt z => Ok (le_signed 2 z)
  | I32, VInt z => Ok (le_signed 4 z)
  | I64, VInt z => Ok (le_signed 8 z)
  | F32, VFloat n => Ok (le 4 n)
  | F64, VFloat n => Ok (le 8 n)
  | PBool, VBool b => Ok (le 1 (if b then 1 else 0))
  | PStr, VStr s => Ok s
  | _, _ => Err EIll
  end.

(** Items of an array: protocol.encode.rs l.223-331 and l.345-355 (fixed-size
    primitives: plain concatenation), l.333-343 (strings: length cast to u32 in
    front), l.67-85 and l.357-375 (enums, structs: u64 length in front). *)
Definition wrap_item (b : base) (x : bytes) : bytes :=
  match b with
  | BPrim PStr => le 4 (blen x) ++ x
  | BPrim _ => x
  | _ => le 8 (blen x) ++ x
  end.

Definition enc_items (item : val -> res bytes err) : list val -> res bytes err :=
  fix go (ws : list val) : res bytes err :=
    match ws with
    | [] => Ok []
    | w :: ws => do x <- item w; do y <- go ws; Ok (x ++ y)
    end.

(** The [ESize] each [get_buf_to_store] passes: scalars l.94-202 use U8(size),
    everything else U64(len). *)
Definition size_class (rep : bool) (b : base) (x : bytes) : esize :=
  if rep then E64 (blen x)
  else match b with
       | BPrim p => match prim_size p with
                    | Some k => E8 (N.of_nat k)
                    | None => E64 (blen x)
                    end
       | _ => E64 (blen x)
       end.

(** [enc_base] is [encode()] of a value (no field header).
    Struct: mod.rs l.175-256 ([abduct]): fields in declaration order.
    Enum: mod.rs l.385-439 ([abduct]): u16 index, payload; [Defaults] is an
    error.  Optional: protocol.encode.rs l.377-387 and, for enums,
    mod.rs l.186-233; both write the empty buffer for [None]. *)
Fixpoint enc_base (b : base) (v : val) {struct b} : res bytes err :=
  match b with
  | BPrim p => enc_prim p v
  | BStruct fs =>
    match v with
    | VStruct vs => enc_fields fs vs
    | _ => Err EIll
    end
  | BEnum vrs =>
    match v with
    | VVariant i w => do x <- enc_variant vrs i w; Ok (le 2 (N.of_nat i) ++ x)
    | VDefaults => Err ENotSupported
    | _ => Err EIll
    end
  end
with enc_fields (fs : fields) (vs : list val) {struct fs} : res bytes err :=
  match fs, vs with
  | FNil, [] => Ok []
  | FCons id opt rep b fs, v :: vs =>
    do x <-
      match opt, v with
      | true, VNone => Ok (empty_buffer_val id)
      | true, VSome w =>
        do x <- (if rep
                 then match w with
                      | VList ws => enc_items (fun u => do y <- enc_base b u; Ok (wrap_item b y)) ws
                      | _ => Err EIll
                      end
                 else enc_base b w);
        Ok (value_buffer id (size_class rep b x) x)
      | true, _ => Err EIll
      | false, w =>
        do x <- (if rep
                 then match w with
                      | VList ws => enc_items (fun u => do y <- enc_base b u; Ok (wrap_item b y)) ws
                      | _ => Err EIll
                      end
                 else enc_base b w);
        Ok (value_buffer id (size_class rep b x) x)
      end;
    do y <- enc_fields fs vs;
    Ok (x ++ y)
  | _, _ => Err EIll
  end
with enc_variant (vrs : variants) (i : nat) (w : val) {struct vrs} : res bytes err :=
  match vrs, i with
  | VNil, _ => Err EIll
  | VCons rep b _, O =>
    if rep
    then match w with
         | VList ws => enc_items (fun u => do y <- enc_base b u; Ok (wrap_item b y)) ws
         | _ => Err EIll
         end
    else enc_base b w
  | VCons _ _ vrs, S i => enc_variant vrs i w
  end.

(** [T::encode()] resp. [Vec<T>::encode()], used above inline. *)
Definition enc_rep (rep : bool) (b : base) (w : val) : res bytes err :=
  if rep
  then match w with
       | VList ws => enc_items (fun u => do y <- enc_base b u; Ok (wrap_item b y)) ws
       | _ => Err EIll
       end
  else enc_base b w.

(** ** Decoding *)

(** [k] bytes from a cursor; [None] if fewer remain. *)
Definition take (k : nat) (bs : bytes) : option (bytes * bytes) :=
  if Nat.ltb (length bs) k then None else Some (firstn k bs, skipn k bs).

(** protocol.storage.rs l.8-11: the field map.  Later inserts shadow earlier
    ones, as in [HashMap::insert]. *)
Definition storage := list (N * bytes).

(** protocol.storage.rs l.125-127 [get] *)
Fixpoint sget (m : storage) (id : N) : option bytes :=
  match m with
  | [] => None
  | (i, body) :: m => if i =? id then Some body else sget m id
  end.

(** protocol.storage.rs l.67-103: rank byte to width of the length *)
Definition rank_width (r : N) : option nat :=
  if r =? 8 then Some 1%nat
  else if r =? 16 then Some 2%nat
  else if r =? 32 then Some 4%nat
  else if r =? 64 then Some 8%nat
  else None.

(** protocol.storage.rs l.45-123 [id], [body], [next].  The argument is the
    suffix of the buffer at the current position; reads beyond the end panic
    ([Buf::get_*] and slice indexing). *)
Definition storage_next (rest : bytes) : res (N * bytes * bytes) err :=
  match take 2 rest with
  | None => Panic
  | Some (idb, r1) =>
    match take 1 r1 with
    | None => Panic
    | Some (rk, r2) =>
      match rank_width (unle rk) with
      | None => Err ERank
      | Some w =>
        match take w r2 with
        | None => Panic
        | Some (lb, r3) =>
          let n := unle lb in
          if blen r3 <? n then Panic
          else Ok (unle idb, firstn (N.to_nat n) r3, skipn (N.to_nat n) r3)
        end
      end
    end
  end.

(** protocol.storage.rs l.19-43 [Storage::new]; fuel because of [loop] *)
Fixpoint storage_loop (fuel : nat) (rest : bytes) (m : storage) : res storage err :=
  match fuel with
  | O => Err EFuel
  | S f =>
    do (id, body, rest') <- storage_next rest;
    let m' := (id, body) :: m in
    match rest' with
    | [] => Ok m'
    | _ => storage_loop f rest' m'
    end
  end.

Definition storage_new (buf : bytes) : res storage err :=
  match buf with
  | [] => Ok []
  | _ => storage_loop (length buf) buf []
  end.

(** [Buf::get_iN_le] *)
Definition unle_signed (bs : bytes) : Z :=
  let n := Z.of_N (unle bs) in
  let k := Z.of_nat (length bs) in
  if (n <? 2 ^ (8 * k - 1))%Z then n else (n - 2 ^ (8 * k))%Z.

Definition prim_val (p : prim) (c : bytes) : val :=
  match p with
  | U8 | U16 | U32 | U64 => VInt (Z.of_N (unle c))
  | I8 | I16 | I32 | I64 => VInt (unle_signed c)
  | F32 | F64 => VFloat (unle c)
  | PBool => VBool (negb (unle c =? 0))
  | PStr => VStr (lossy c)
  end.

(** protocol.decode.rs l.141-303: a primitive needs at least its size and reads
    a prefix; strings take everything. *)
Definition dec_prim (p : prim) (buf : bytes) : res val err :=
  match prim_size p with
  | None => Ok (prim_val p buf)
  | Some k =>
    match take k buf with
    | None => Err EShort
    | Some (c, _) => Ok (prim_val p c)
    end
  end.

(** protocol.decode.rs l.77-116, l.558-589, l.591-638: length-prefixed items.
    [k] is 4 (strings) or 8.  l.95/l.609: [U64_LEN + item_len as usize]
    overflows for the eight largest lengths; then both debug (overflow check)
    and release builds ([vec![0; item_len]] exceeds isize::MAX) panic. *)
Fixpoint dec_items (k : nat) (item : bytes -> res val err) (fuel : nat) (buf : bytes)
  : res (list val) err :=
  match buf with
  | [] => Ok []
  | _ =>
    match fuel with
    | O => Err EFuel
    | S f =>
      match take k buf with
      | None => Err EShort
      | Some (lb, r) =>
        let n := unle lb in
        if 2 ^ 64 <=? N.of_nat k + n then Panic
        else if blen r <? n then Err EShort
        else
          do v <- item (firstn (N.to_nat n) r);
          do vs <- dec_items k item f (skipn (N.to_nat n) r);
          Ok (v :: vs)
      end
    end
  end.

(** protocol.decode.rs l.328-556: arrays of fixed-size primitives *)
Fixpoint dec_chunks (k : nat) (item : bytes -> res val err) (fuel : nat) (buf : bytes)
  : res (list val) err :=
  match buf with
  | [] => Ok []
  | _ =>
    match fuel with
    | O => Err EFuel
    | S f =>
      match take k buf with
      | None => Err EShort
      | Some (c, r) =>
        do v <- item c;
        do vs <- dec_chunks k item f r;
        Ok (v :: vs)
      end
    end
  end.

Definition dec_list (b : base) (item : bytes -> res val err) (buf : bytes)
  : res val err :=
  do vs <-
    match b with
    | BPrim p =>
      match prim_size p with
      | Some k => dec_chunks k item (length buf) buf
      | None => dec_items 4 item (length buf) buf
      end
    | _ => dec_items 8 item (length buf) buf
    end;
  Ok (VList vs).

(** [dec_base] is [T::decode(buf)].
    Struct: protocol.decode.rs l.305-326 / l.19-31 with mod.rs l.92-153
    ([extract_from_storage]).  Enum: mod.rs l.300-366 ([extract]).
    Optional fields: protocol.decode.rs l.640-658, mod.rs l.98-133. *)
Fixpoint dec_base (b : base) (buf : bytes) {struct b} : res val err :=
  match b with
  | BPrim p => dec_prim p buf
  | BStruct fs =>
    do m <- storage_new buf;
    do vs <- dec_fields fs m;
    Ok (VStruct vs)
  | BEnum vrs =>
    if blen buf <=? 2 then Err EShort
    else
      do (i, w) <- dec_variant vrs (unle (firstn 2 buf)) (skipn 2 buf);
      Ok (VVariant i w)
  end
with dec_fields (fs : fields) (m : storage) {struct fs} : res (list val) err :=
  match fs with
  | FNil => Ok []
  | FCons id opt rep b fs =>
    do v <-
      match sget m id with
      | None => Err EMissing
      | Some buf =>
        if opt then
          match buf with
          | [] => Ok VNone
          | _ =>
            do w <- (if rep then dec_list b (dec_base b) buf else dec_base b buf);
            Ok (VSome w)
          end
        else (if rep then dec_list b (dec_base b) buf else dec_base b buf)
      end;
    do vs <- dec_fields fs m;
    Ok (v :: vs)
  end
with dec_variant (vrs : variants) (i : N) (buf : bytes) {struct vrs} : res (nat * val) err :=
  match vrs with
  | VNil => Err EVariant
  | VCons rep b vrs =>
    if i =? 0 then
      do w <- (if rep then dec_list b (dec_base b) buf else dec_base b buf);
      Ok (O, w)
    else
      do (j, w) <- dec_variant vrs (i - 1) buf;
      Ok (S j, w)
  end.

Definition dec_rep (rep : bool) (b : base) (buf : bytes) : res val err :=
  if rep then dec_list b (dec_base b) buf else dec_base b buf.

(** mod.rs l.738-789 [get_msg]: dispatch on the message id.  The table lists
    enums first, then structs, as the generated [match] does. *)
Fixpoint get_msg (table : list (N * base)) (id : N) (buf : bytes) : res (N * val) err :=
  match table with
  | [] => Err EUnknownMsg
  | (i, b) :: table =>
    if i =? id then do v <- dec_base b buf; Ok (i, v) else get_msg table id buf
  end.
