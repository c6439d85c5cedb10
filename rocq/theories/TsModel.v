(** Model of the generated TypeScript codec and reader: the static runtime in
    cli/src/protocol/render/typescript/static/ and the per-type code emitted by
    cli/src/protocol/render/typescript/mod.rs.

    Conventions: a returned [Error] is [Err], a thrown exception is [Panic].
    Numbers are exact: lengths above 2^53, which JavaScript would round, exceed
    every possible buffer and are treated alike.  Floats are bit patterns (NaN
    payloads are not followed through JavaScript numbers).  JavaScript strings
    are restricted to sequences of scalar values (no lone surrogates) and
    represented by their UTF-8 bytes. *)
From Coq Require Import List NArith ZArith Lia Bool.
From Verif Require Import Bytes Utf8 WireModel FrameModel.
Import ListNotations.
Open Scope N_scope.

(** ** Encoding *)

(** protocol.primitives.{u8..f64,bool}.ts [encode]: Node's [Buffer.write*]
    throws on values out of range, which is caught and returned.
    protocol.primitives.string.utf8.ts l.14-17: [TextEncoder]. *)
Definition ts_int (lo hi : Z) (z : Z) (bs : bytes) : res bytes err :=
  if ((lo <=? z) && (z <? hi))%Z then Ok bs else Err ERange.

Definition ts_enc_prim (p : prim) (v : val) : res bytes err :=
  match p, v with
  | U8, VInt z => ts_int 0 (2 ^ 8) z (le 1 (Z.to_N z))
  | U16, VInt z => ts_int 0 (2 ^ 16) z (le 2 (Z.to_N z))
  | U32, VInt z => ts_int 0 (2 ^ 32) z (le 4 (Z.to_N z))
  | U64, VInt z => ts_int 0 (2 ^ 64) z (le 8 (Z.to_N z))
  | I8, VInt z => ts_int (- 2 ^ 7) (2 ^ 7) z (le_signed 1 z)
  | I16, VInt z => ts_int (- 2 ^ 15) (2 ^ 15) z (le_signed 2 z)
  | I32, VInt z => ts_int (- 2 ^ 31) (2 ^ 31) z (le_signed 4 z)
  | I64, VInt z => ts_int (- 2 ^ 63) (2 ^ 63) z (le_signed 8 z)
  | F32, VFloat n => Ok (le 4 n)
  | F64, VFloat n => Ok (le 8 n)
  | PBool, VBool b => Ok (le 1 (if b then 1 else 0))
  | PStr, VStr s => Ok s
  | _, _ => Err EIll
  end.

(** protocol.convertor.ts l.32-97 [getBuffer]: [u16.encode(id)] is checked *)
Definition ts_buffer (id : N) (size : esize) (value : bytes) : res bytes err :=
  if id <? 65536 then Ok (value_buffer id size value) else Err ERange.

(** One array item: protocol.primitives.array.*.ts [encode] (fixed size:
    concatenation; strings: checked u32 length in front),
    protocol.convertor.ts l.138-164 [encodeSelfArray] (u64 length). *)
Definition ts_wrap (b : base) (x : bytes) : res bytes err :=
  match b with
  | BPrim PStr => if blen x <? 2 ^ 32 then Ok (le 4 (blen x) ++ x) else Err ERange
  | BPrim _ => Ok x
  | _ => Ok (le 8 (blen x) ++ x)
  end.

(** Struct: mod.rs l.175-189 and protocol.convertor.ts l.12-29 [collect].
    Field: mod.rs l.1337-1380 [get_field_encode]; an enum field is encoded as a
    single value even if declared as an array.
    Enum: protocol.primitives.enum.ts l.74-87; an enum without value encodes to
    nothing.  Variants: mod.rs l.269-307 [enum_getter], l.309-366
    [enum_setter]: an array of structs is treated as a single struct, an enum
    inside an enum stops the generator. *)
Fixpoint ts_enc_base (b : base) (v : val) {struct b} : res bytes err :=
  match b with
  | BPrim p => ts_enc_prim p v
  | BStruct fs =>
    match v with
    | VStruct vs => ts_enc_fields fs vs
    | _ => Err EIll
    end
  | BEnum vrs =>
    match v with
    | VVariant i w =>
      do x <- ts_enc_variant vrs i w;
      if N.of_nat i <? 65536 then Ok (le 2 (N.of_nat i) ++ x) else Panic
    | VDefaults => Ok []
    | _ => Err EIll
    end
  end
with ts_enc_fields (fs : fields) (vs : list val) {struct fs} : res bytes err :=
  match fs, vs with
  | FNil, [] => Ok []
  | FCons id opt rep b fs, v :: vs =>
    do x <-
      match opt, v with
      | true, VNone => ts_buffer id (E8 0) []
      | true, VSome w =>
        do x <- (if rep && negb (match b with BEnum _ => true | _ => false end)
                 then match w with
                      | VList ws => enc_items (fun u => do y <- ts_enc_base b u; ts_wrap b y) ws
                      | _ => Err EIll
                      end
                 else ts_enc_base b w);
        ts_buffer id (size_class rep b x) x
      | true, _ => Err EIll
      | false, w =>
        do x <- (if rep && negb (match b with BEnum _ => true | _ => false end)
                 then match w with
                      | VList ws => enc_items (fun u => do y <- ts_enc_base b u; ts_wrap b y) ws
                      | _ => Err EIll
                      end
                 else ts_enc_base b w);
        ts_buffer id (size_class rep b x) x
      end;
    do y <- ts_enc_fields fs vs;
    Ok (x ++ y)
  | _, _ => Err EIll
  end
with ts_enc_variant (vrs : variants) (i : nat) (w : val) {struct vrs} : res bytes err :=
  match vrs, i with
  | VNil, _ => Err EIll
  | VCons rep b _, O =>
    match b with
    | BPrim _ =>
      if rep
      then match w with
           | VList ws => enc_items (fun u => do y <- ts_enc_base b u; ts_wrap b y) ws
           | _ => Err EIll
           end
      else ts_enc_base b w
    | BStruct _ => ts_enc_base b w
    | BEnum _ => Err ENotSupported
    end
  | VCons _ _ vrs, S i => ts_enc_variant vrs i w
  end.

(** ** Decoding *)

(** protocol.convertor.storage.ts l.38-118 [_getId], [_getRank], [_next]: the
    id is read with [readUInt8], i.e. only its low byte, although two bytes
    are skipped.  A body cut short moves the position behind the end, which the
    next round of [read] reports. *)
Definition ts_storage_next (rest : bytes) : res (N * bytes * bytes) err :=
  match take 2 rest with
  | None => Err EShort
  | Some (idb, r1) =>
    match take 1 r1 with
    | None => Err EShort
    | Some (rk, r2) =>
      match rank_width (unle rk) with
      | None => Err ERank
      | Some w =>
        match take w r2 with
        | None => Err EShort
        | Some (lb, r3) =>
          let n := unle lb in
          if blen r3 <? n then Err EShort
          else Ok (unle (firstn 1 idb), firstn (N.to_nat n) r3, skipn (N.to_nat n) r3)
        end
      end
    end
  end.

(** protocol.convertor.storage.ts l.15-32 [read]; [Map.set]: the last entry for
    an id wins *)
Fixpoint ts_storage_loop (fuel : nat) (rest : bytes) (m : storage) : res storage err :=
  match rest with
  | [] => Ok m
  | _ =>
    match fuel with
    | O => Err EFuel
    | S f =>
      do (id, body, rest') <- ts_storage_next rest;
      ts_storage_loop f rest' ((id, body) :: m)
    end
  end.

Definition ts_storage_new (buf : bytes) : res storage err :=
  ts_storage_loop (length buf) buf [].

(** [TextDecoder] drops a leading byte order mark *)
Definition strip_bom (s : bytes) : bytes :=
  match s with
  | b0 :: b1 :: b2 :: r =>
    if (b2n b0 =? 239) && (b2n b1 =? 187) && (b2n b2 =? 191) then r else s
  | _ => s
  end.

Definition ts_prim_val (p : prim) (c : bytes) : val :=
  match p with
  | U8 | U16 | U32 | U64 => VInt (Z.of_N (unle c))
  | I8 | I16 | I32 | I64 => VInt (unle_signed c)
  | F32 | F64 => VFloat (unle c)
  | PBool => VBool (unle c =? 1)
  | PStr => VStr (lossy (strip_bom c))
  end.

(** protocol.primitives.*.ts [decode]: the length must match exactly *)
Definition ts_dec_prim (p : prim) (buf : bytes) : res val err :=
  match prim_size p with
  | None => Ok (ts_prim_val p buf)
  | Some k => if Nat.eqb (length buf) k then Ok (ts_prim_val p buf) else Err EShort
  end.

(** protocol.primitives.array.string.utf8.ts l.50-100 and protocol.convertor.ts
    l.166-202 [decodeSelfArray]: [slice] clamps, a length that cannot be read
    in a later round throws. *)
Fixpoint ts_items_loop (k : nat) (item : bytes -> res val err) (fuel : nat) (buf : bytes)
  : res (list val) err :=
  match fuel with
  | O => Err EFuel
  | S f =>
    match take k buf with
    | None => Panic
    | Some (lb, r) =>
      let n := N.to_nat (N.min (unle lb) (blen r)) in
      do v <- item (firstn n r);
      match skipn n r with
      | [] => Ok [v]
      | rest => do vs <- ts_items_loop k item f rest; Ok (v :: vs)
      end
    end
  end.

Definition ts_items (k : nat) (item : bytes -> res val err) (buf : bytes) : res (list val) err :=
  match buf with
  | [] => Ok []
  | _ => if Nat.ltb (length buf) k then Err EShort
         else ts_items_loop k item (length buf) buf
  end.

(** protocol.primitives.array.*.ts [decode]; arrays of fixed-size items behave
    like the Rust ones: items of the exact size, a remainder is an error *)
Definition ts_dec_list (b : base) (item : bytes -> res val err) (buf : bytes) : res val err :=
  do vs <-
    match b with
    | BPrim p =>
      match prim_size p with
      | Some k => dec_chunks k item (length buf) buf
      | None => ts_items 4 item buf
      end
    | _ => ts_items 8 item buf
    end;
  Ok (VList vs).

(** Struct: mod.rs l.191-219; fields: l.1103-1148 [get_field_decode_wrap],
    l.1150-1335 [get_field_decode].  Enum: protocol.primitives.enum.ts l.89-104. *)
Fixpoint ts_dec_base (b : base) (buf : bytes) {struct b} : res val err :=
  match b with
  | BPrim p => ts_dec_prim p buf
  | BStruct fs =>
    do m <- ts_storage_new buf;
    do vs <- ts_dec_fields fs m;
    Ok (VStruct vs)
  | BEnum vrs =>
    match take 2 buf with
    | None => Panic
    | Some (idb, r) =>
      do (i, w) <- ts_dec_variant vrs (unle idb) r;
      Ok (VVariant i w)
    end
  end
with ts_dec_fields (fs : fields) (m : storage) {struct fs} : res (list val) err :=
  match fs with
  | FNil => Ok []
  | FCons id opt rep b fs =>
    do v <-
      match sget m id with
      | None => Err EMissing
      | Some buf =>
        if opt then
          match buf with
          | [] => Ok VNone
          | _ =>
            do w <- (if rep && negb (match b with BEnum _ => true | _ => false end)
                     then ts_dec_list b (ts_dec_base b) buf else ts_dec_base b buf);
            Ok (VSome w)
          end
        else
          match b, buf with
          | BEnum _, [] => Ok VDefaults
          | _, _ =>
            if rep && negb (match b with BEnum _ => true | _ => false end)
            then ts_dec_list b (ts_dec_base b) buf else ts_dec_base b buf
          end
      end;
    do vs <- ts_dec_fields fs m;
    Ok (v :: vs)
  end
with ts_dec_variant (vrs : variants) (i : N) (buf : bytes) {struct vrs} : res (nat * val) err :=
  match vrs with
  | VNil => Panic                      (* default: throw *)
  | VCons rep b vrs =>
    if i =? 0 then
      do w <- (match b with
               | BPrim _ => if rep then ts_dec_list b (ts_dec_base b) buf else ts_dec_base b buf
               | BStruct _ => ts_dec_base b buf
               | BEnum _ => Err ENotSupported
               end);
      Ok (O, w)
    else
      do (j, w) <- ts_dec_variant vrs (i - 1) buf;
      Ok (S j, w)
  end.

(** mod.rs l.1623-1681 [buffer]: [getMessage], enums first, then structs;
    an unknown id throws *)
Fixpoint ts_get_msg (table : list (N * base)) (id : N) (buf : bytes) : res (N * val) err :=
  match table with
  | [] => Panic
  | (i, b) :: table =>
    if i =? id then do v <- ts_dec_base b buf; Ok (i, v) else ts_get_msg table id buf
  end.

(** ** Reader: packing.ts l.27-92 [chunk], without packing middleware.

    One round of [do .. while (true)]. *)
Inductive ts_round {M : Type} :=
| RBreak                                       (* l.37, l.43: leave the loop *)
| RStay                                        (* l.45-54: error, nothing consumed *)
| RThrow                                       (* [getMessage] throws *)
| RNext (e : bool) (buf : bytes) (q : list (header * M)).
Arguments ts_round : clear implicits.

Definition ts_step {M : Type} (dm : N -> bytes -> res M err) (sig : N)
           (buf : bytes) (q : list (header * M)) : ts_round M :=
  if negb (has_header buf) then RBreak
  else
    let h := get_header buf in
    if blen buf <? h_len h + header_len then RBreak
    else if negb (h_sig h =? sig) then RStay
    else
      let body := firstn (N.to_nat (h_len h)) (skipn 26 buf) in
      let rest := skipn (N.to_nat (h_len h)) (skipn 26 buf) in
      match dm (h_id h) body with
      | Ok m => RNext false rest (q ++ [(h, m)])
      | Err _ => RNext true rest q
      | Panic => RThrow
      end.

(** The loop.  [None]: still running after [fuel] rounds. *)
Inductive ts_outcome := TReturned (errors : nat) | TThrown.

Fixpoint ts_loop {M : Type} (dm : N -> bytes -> res M err) (sig : N) (fuel : nat)
         (errs : nat) (buf : bytes) (q : list (header * M)) : option (ts_outcome * rbuf M) :=
  match fuel with
  | O => None
  | S f =>
    match ts_step dm sig buf q with
    | RBreak => Some (TReturned errs, mkBuf buf q)
    | RStay => ts_loop dm sig f (S errs) buf q
    | RThrow => Some (TThrown, mkBuf buf q)
    | RNext e buf' q' => ts_loop dm sig f (if e then S errs else errs) buf' q'
    end
  end.

Definition ts_chunk {M : Type} (dm : N -> bytes -> res M err) (sig : N) (fuel : nat)
           (st : rbuf M) (data : bytes) : option (ts_outcome * rbuf M) :=
  ts_loop dm sig fuel 0 (rb_buf st ++ data) (rb_queue st).

(** [chunk] returns (normally or by exception) / runs forever *)
Definition ts_returns {M} dm sig (st : rbuf M) data o st' : Prop :=
  exists fuel, ts_chunk dm sig fuel st data = Some (o, st').
Definition ts_diverges {M} dm sig (st : rbuf M) data : Prop :=
  forall fuel, ts_chunk dm sig fuel st data = None.
