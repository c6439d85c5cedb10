(** Bytes, little-endian integers and the three-valued result type. *)
From Coq Require Import List NArith ZArith Lia Bool.
From Coq Require Import Strings.Byte.
Import ListNotations.
Open Scope N_scope.

(** [Result<T, String>] of the Rust code plus the outcome "the thread
    panicked".  Error texts are reduced to kinds. *)
Inductive res (A E : Type) : Type :=
| Ok (a : A)
| Err (e : E)
| Panic.
Arguments Ok {A E} a.
Arguments Err {A E} e.
Arguments Panic {A E}.

Definition bind {A B E} (x : res A E) (f : A -> res B E) : res B E :=
  match x with Ok a => f a | Err e => Err e | Panic => Panic end.
Notation "'do' x <- e ; f" := (bind e (fun x => f))
  (at level 200, x pattern, e at level 100, f at level 200).

Definition is_ok {A E} (x : res A E) : bool :=
  match x with Ok _ => true | _ => false end.

(** A Rust [u8]. *)
Definition byte := Byte.byte.
Definition bytes := list byte.

Definition b2n (b : byte) : N := Byte.to_N b.
Definition n2b (n : N) : byte :=
  match Byte.of_N (n mod 256) with Some b => b | None => x00 end.

Lemma b2n_lt b : b2n b < 256.
Proof. unfold b2n. pose proof (Byte.to_N_bounded b). lia. Qed.

Lemma b2n_n2b n : b2n (n2b n) = n mod 256.
Proof.
  unfold n2b, b2n.
  assert (H : n mod 256 < 256) by (apply N.mod_lt; lia).
  destruct (Byte.of_N (n mod 256)) eqn:E.
  - apply Byte.to_of_N in E. auto.
  - apply Byte.of_N_None_iff in E. lia.
Qed.

Lemma n2b_b2n b : n2b (b2n b) = b.
Proof.
  unfold n2b, b2n. rewrite N.mod_small by (pose proof (Byte.to_N_bounded b); lia).
  rewrite Byte.of_to_N. reflexivity.
Qed.

Lemma b2n_inj a b : b2n a = b2n b -> a = b.
Proof. intros H. rewrite <- (n2b_b2n a), <- (n2b_b2n b), H. reflexivity. Qed.

(** [uN::to_le_bytes]: [k] bytes, least significant first; values that do not
    fit are truncated (as an [as uN] cast in front of it does). *)
Fixpoint le (k : nat) (n : N) : bytes :=
  match k with
  | O => []
  | S k => n2b n :: le k (n / 256)
  end.

(** [Buf::get_uN_le] on exactly the bytes of the integer. *)
Fixpoint unle (bs : bytes) : N :=
  match bs with
  | [] => 0
  | b :: bs => b2n b + 256 * unle bs
  end.

(** [v.len()] *)
Definition blen (bs : bytes) : N := N.of_nat (length bs).

Lemma le_length k n : length (le k n) = k.
Proof. revert n; induction k; simpl; auto. Qed.

Lemma unle_le k n : unle (le k n) = n mod (256 ^ N.of_nat k).
Proof.
  revert n; induction k; intros n.
  - simpl. rewrite N.mod_1_r. reflexivity.
  - cbn [le unle]. rewrite b2n_n2b, IHk, Nnat.Nat2N.inj_succ, N.pow_succ_r'.
    rewrite N.mod_mul_r by (try apply N.pow_nonzero; lia). lia.
Qed.

Lemma unle_le_small k n : n < 256 ^ N.of_nat k -> unle (le k n) = n.
Proof. intros. rewrite unle_le. apply N.mod_small; auto. Qed.

Lemma unle_bound bs : unle bs < 256 ^ blen bs.
Proof.
  unfold blen. induction bs as [|b bs IH]; [reflexivity|].
  cbn [unle length]. rewrite Nnat.Nat2N.inj_succ, N.pow_succ_r'.
  pose proof (b2n_lt b). lia.
Qed.

Lemma le_unle bs : le (length bs) (unle bs) = bs.
Proof.
  induction bs as [|b bs IH]; [reflexivity|].
  cbn [length le unle].
  pose proof (b2n_lt b).
  assert (E1 : n2b (b2n b + 256 * unle bs) = b).
  { apply b2n_inj. rewrite b2n_n2b.
    rewrite N.mul_comm, N.mod_add, N.mod_small by lia. reflexivity. }
  assert (E2 : (b2n b + 256 * unle bs) / 256 = unle bs).
  { rewrite N.mul_comm, N.div_add by lia. rewrite N.div_small by lia. lia. }
  rewrite E1, E2, IH. reflexivity.
Qed.

Lemma blen_app a b : blen (a ++ b) = blen a + blen b.
Proof. unfold blen. rewrite app_length. lia. Qed.

Lemma blen_nil : blen [] = 0.
Proof. reflexivity. Qed.

Lemma blen_cons a l : blen (a :: l) = 1 + blen l.
Proof. unfold blen; cbn [length]. lia. Qed.

Lemma blen_le k n : blen (le k n) = N.of_nat k.
Proof. unfold blen. rewrite le_length. reflexivity. Qed.

(** Equality of byte strings is decidable. *)
Definition byte_eq_dec : forall a b : byte, {a = b} + {a <> b}.
Proof.
  intros a b. destruct (N.eq_dec (b2n a) (b2n b)) as [H|H].
  - left. apply b2n_inj; auto.
  - right. intros ->. apply H; reflexivity.
Defined.

Lemma firstn_app_exact {A} (a b : list A) : firstn (length a) (a ++ b) = a.
Proof. rewrite firstn_app, firstn_all, Nat.sub_diag. simpl. apply app_nil_r. Qed.

Lemma skipn_app_exact {A} (a b : list A) : skipn (length a) (a ++ b) = b.
Proof. rewrite skipn_app, skipn_all, Nat.sub_diag. reflexivity. Qed.

Lemma firstn_app_len {A} k (a b : list A) : length a = k -> firstn k (a ++ b) = a.
Proof. intros <-. apply firstn_app_exact. Qed.

Lemma skipn_app_len {A} k (a b : list A) : length a = k -> skipn k (a ++ b) = b.
Proof. intros <-. apply skipn_app_exact. Qed.
