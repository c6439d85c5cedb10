(** Model of message framing in the generated Rust code:
    cli/src/protocol/render/rust/static/protocol.packing.rs and
    protocol.buffer.rs. *)
From Coq Require Import List NArith ZArith Lia Bool.
From Verif Require Import Bytes WireModel.
Import ListNotations.
Open Scope N_scope.

(** protocol.packing.rs l.9-13 [MSG_HEADER_LEN]: 4 + 2 + 4 + 8 + 8 *)
Definition header_len : N := 26.

(** protocol.packing.rs l.55-63 [PackageHeader] ([len_usize] equals [len] on a
    64 bit target) *)
Record header := mkHeader {
  h_id : N; h_sig : N; h_seq : N; h_ts : N; h_len : N
}.

(** protocol.packing.rs l.133-159 [pack_buffer] with the identity middleware
    (l.36-53); [ts] is the clock (seconds). *)
Definition pack (id sig seq ts : N) (body : bytes) : bytes :=
  le 4 id ++ le 2 sig ++ le 4 seq ++ le 8 ts ++ le 8 (blen body) ++ body.

(** protocol.packing.rs l.65-67 *)
Definition has_header (buf : bytes) : bool := header_len <=? blen buf.

Definition slice (from n : nat) (buf : bytes) : bytes := firstn n (skipn from buf).

(** protocol.packing.rs l.69-98 [get_header_from_buffer], only called when
    [has_header] holds *)
Definition get_header (buf : bytes) : header :=
  mkHeader (unle (slice 0 4 buf)) (unle (slice 4 2 buf)) (unle (slice 6 4 buf))
           (unle (slice 10 8 buf)) (unle (slice 18 8 buf)).

(** Outcome of [Buffer::chunk]: protocol.buffer.rs l.7-11 [ReadError]
    ([Header] cannot occur: the length check repeats [has_header]). *)
Inductive rerr := RSignature | RParsing.
Inductive outcome := COk | CErr (e : rerr) | CPanic.

(** protocol.buffer.rs l.13-27 *)
Record rbuf (M : Type) := mkBuf { rb_buf : bytes; rb_queue : list (header * M) }.
Arguments mkBuf {M}. Arguments rb_buf {M}. Arguments rb_queue {M}.

(** protocol.buffer.rs l.53-58 *)
Definition rbuf_new {M : Type} : rbuf M := mkBuf [] [].

(** protocol.buffer.rs l.61-95 [chunk] from l.64 on (the bytes are already
    appended); the recursive call l.88 appends nothing.  [dm] is [get_msg],
    [sig] is [get_signature].  Overflow of [len_usize + MSG_HEADER_LEN]
    (packing.rs l.101): see WireModel.dec_items, both builds panic. *)
Fixpoint chunk_loop {M : Type} (dm : N -> bytes -> res M err) (sig : N)
         (fuel : nat) (st : rbuf M) : outcome * rbuf M :=
  match fuel with
  | O => (CPanic, st)                                (* unreachable *)
  | S f =>
    let buf := rb_buf st in
    if negb (has_header buf) then (COk, st)
    else
      let h := get_header buf in
      if 2 ^ 64 <=? h_len h + header_len then (CPanic, st)
      else if blen buf <? h_len h + header_len then (COk, st)
      else
        let body := firstn (N.to_nat (h_len h)) (skipn 26 buf) in
        let rest := skipn (N.to_nat (h_len h)) (skipn 26 buf) in
        if negb (h_sig h =? sig) then (CErr RSignature, mkBuf rest (rb_queue st))
        else
          match dm (h_id h) body with
          | Ok m =>
            let st' := mkBuf rest (rb_queue st ++ [(h, m)]) in
            match rest with
            | [] => (COk, st')
            | _ => chunk_loop dm sig f st'
            end
          | Err _ => (CErr RParsing, mkBuf rest (rb_queue st))
          | Panic => (CPanic, mkBuf rest (rb_queue st))
          end
  end.

Definition chunk {M : Type} (dm : N -> bytes -> res M err) (sig : N)
           (st : rbuf M) (data : bytes) : outcome * rbuf M :=
  let buf := rb_buf st ++ data in
  chunk_loop dm sig (S (length buf)) (mkBuf buf (rb_queue st)).

(** protocol.buffer.rs l.98-109 [next] *)
Definition next {M : Type} (st : rbuf M) : option (header * M) * rbuf M :=
  match rb_queue st with
  | [] => (None, st)
  | m :: q => (Some m, mkBuf (rb_buf st) q)
  end.

(** protocol.buffer.rs l.111-117 [len], [pending] *)
Definition rb_len {M : Type} (st : rbuf M) : N := blen (rb_buf st).
Definition rb_pending {M : Type} (st : rbuf M) : nat := length (rb_queue st).

(** A receiver fed chunk after chunk; outcomes are collected. *)
Fixpoint feed {M : Type} (dm : N -> bytes -> res M err) (sig : N)
         (st : rbuf M) (chunks : list bytes) : list outcome * rbuf M :=
  match chunks with
  | [] => ([], st)
  | c :: cs =>
    let (o, st1) := chunk dm sig st c in
    let (os, st2) := feed dm sig st1 cs in
    (o :: os, st2)
  end.
