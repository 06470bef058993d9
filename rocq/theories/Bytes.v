(** Bytes, big-endian integers and Rust slices.

    This file models the primitive Rust notions the code of /repo relies on:
    [u8], [to_be_bytes]/[from_be_bytes], slice indexing and
    [copy_from_slice] (used in src/core/memory_map.rs, crc.rs, encrypt.rs and
    buffer.rs).  A byte is Coq's 256-constructor type [byte], so a byte string
    is well formed by construction. *)
From Coq Require Export Init.Byte Strings.Byte NArith ZArith Lia.
From stdpp Require Export base gmap countable list.
From Coq Require Import ZifyBool ZifyNat ZifyN.
Ltac Zify.zify_post_hook ::= Z.div_mod_to_equations.


Notation bytes := (list byte).

(** Length of a byte string as [usize]/[u64] (unbounded [N]; wrap-around is
    written out where the code can wrap). *)
Definition len (l : bytes) : N := N.of_nat (length l).

(** [u8 as N]. *)
Definition b2n (b : byte) : N := Byte.to_N b.

(** [N as u8]: truncation modulo 256. *)
Definition n2b (n : N) : byte :=
  match Byte.of_N (n mod 256) with Some b => b | None => x00 end.

Global Instance byte_eq_decision : EqDecision byte.
Proof. intros a b. unfold Decision. destruct (Byte.byte_eq_dec a b); auto. Defined.

Lemma b2n_n2b n : b2n (n2b n) = (n mod 256)%N.
Proof.
  unfold b2n, n2b.
  destruct (Byte.of_N (n mod 256)) as [b|] eqn:E.
  - apply Byte.to_of_N in E. exact E.
  - exfalso. apply Byte.of_N_None_iff in E.
    pose proof (N.mod_lt n 256 ltac:(lia)). lia.
Qed.

Lemma b2n_lt b : (b2n b < 256)%N.
Proof. unfold b2n. pose proof (Byte.to_N_bounded b). lia. Qed.

Lemma n2b_b2n b : n2b (b2n b) = b.
Proof.
  unfold n2b, b2n. rewrite N.mod_small by apply b2n_lt.
  pose proof (Byte.of_to_N b) as E. rewrite E. reflexivity.
Qed.

Lemma b2n_inj a b : b2n a = b2n b -> a = b.
Proof. intros H. rewrite <- (n2b_b2n a), <- (n2b_b2n b), H. reflexivity. Qed.

Global Instance byte_countable : Countable byte.
Proof.
  refine (inj_countable' b2n n2b _). intros b. apply n2b_b2n.
Defined.

(** * Big-endian integers *)

(** [be w v]: the [w]-byte big-endian representation of [v mod 256^w]
    (Rust [to_be_bytes] of the unsigned type of width [w]). *)
Fixpoint be (w : nat) (v : N) : bytes :=
  match w with
  | O => []
  | S w' => n2b (v / 256 ^ N.of_nat w') :: be w' v
  end.

(** [unbe l]: Rust [from_be_bytes] of the unsigned type of width [length l]. *)
Fixpoint unbe (l : bytes) : N :=
  match l with
  | [] => 0
  | b :: r => b2n b * 256 ^ N.of_nat (length r) + unbe r
  end.

Lemma be_length w v : length (be w v) = w.
Proof. induction w as [|w IH]; cbn [be length]; [reflexivity|]. rewrite IH. reflexivity. Qed.

Lemma len_be w v : len (be w v) = N.of_nat w.
Proof. unfold len. rewrite be_length. reflexivity. Qed.

Lemma pow256_pos w : (0 < 256 ^ N.of_nat w)%N.
Proof. apply N.neq_0_lt_0, N.pow_nonzero. lia. Qed.

Lemma pow256_S w : (256 ^ N.of_nat (S w) = 256 * 256 ^ N.of_nat w)%N.
Proof. rewrite Nat2N.inj_succ, N.pow_succ_r'. reflexivity. Qed.

Lemma unbe_lt l : (unbe l < 256 ^ N.of_nat (length l))%N.
Proof.
  induction l as [|b r IH]; cbn [unbe length]; [vm_compute; reflexivity|].
  rewrite pow256_S. pose proof (b2n_lt b). nia.
Qed.

Lemma unbe_be w v : unbe (be w v) = (v mod 256 ^ N.of_nat w)%N.
Proof.
  induction w as [|w IH]; cbn [be unbe].
  - cbn. rewrite N.mod_1_r. reflexivity.
  - rewrite IH, be_length, b2n_n2b, pow256_S.
    pose proof (pow256_pos w) as Hp.
    set (P := (256 ^ N.of_nat w)%N) in *.
    rewrite (N.mul_comm 256 P), N.mod_mul_r by lia. nia.
Qed.

Lemma unbe_be_small w v : (v < 256 ^ N.of_nat w)%N -> unbe (be w v) = v.
Proof. intros H. rewrite unbe_be. apply N.mod_small, H. Qed.

Lemma be_mod w v : be w (v mod 256 ^ N.of_nat w) = be w v.
Proof.
  assert (G : forall w k v, be w (v mod 256 ^ N.of_nat (k + w)) = be w v).
  { clear. induction w as [|w IH]; intros k v; cbn [be]; [reflexivity|].
    f_equal.
    - apply b2n_inj. rewrite !b2n_n2b.
      replace (k + S w)%nat with (S k + w)%nat by lia.
      rewrite (Nat2N.inj_add (S k) w), N.pow_add_r.
      pose proof (pow256_pos w) as Hp. pose proof (pow256_pos k) as Hk.
      rewrite pow256_S.
      set (P := (256 ^ N.of_nat w)%N) in *. set (K := (256 ^ N.of_nat k)%N) in *.
      rewrite (N.mul_comm (256 * K) P), N.mod_mul_r by lia.
      rewrite N.mul_comm, N.div_add by lia.
      rewrite (N.div_small (v mod P)) by (apply N.mod_lt; lia).
      rewrite N.add_0_l.
      rewrite (N.mod_mul_r (v / P) 256 K) by lia.
      rewrite (N.mul_comm 256), N.mod_add by lia.
      apply N.mod_mod. lia.
    - replace (k + S w)%nat with (S k + w)%nat by lia. apply IH. }
  apply (G w 0%nat v).
Qed.

Lemma be_unbe l : be (length l) (unbe l) = l.
Proof.
  induction l as [|b r IH]; cbn [be unbe length]; [reflexivity|].
  pose proof (unbe_lt r) as Hr. pose proof (pow256_pos (length r)) as Hp.
  set (P := (256 ^ N.of_nat (length r))%N) in *.
  f_equal.
  - rewrite N.add_comm, N.div_add, (N.div_small (unbe r)) by lia.
    rewrite N.add_0_l. apply n2b_b2n.
  - rewrite <- (be_mod (length r) (b2n b * P + unbe r)). fold P.
    rewrite N.add_comm, N.mod_add, N.mod_small by lia. exact IH.
Qed.

Lemma be_inj w v v' :
  (v < 256 ^ N.of_nat w)%N -> (v' < 256 ^ N.of_nat w)%N -> be w v = be w v' -> v = v'.
Proof. intros H H' E. rewrite <- (unbe_be_small w v), <- (unbe_be_small w v'), E by assumption. reflexivity. Qed.

(** * Signed integers *)

(** [i32 as u32] etc.: two's complement of width [w] bytes. *)
Definition z2u (w : nat) (z : Z) : N := Z.to_N (z mod 2 ^ (8 * Z.of_nat w)).

(** [u32 as i32] etc. *)
Definition u2z (w : nat) (n : N) : Z :=
  let z := Z.of_N n in
  if Z.ltb z (2 ^ (8 * Z.of_nat w - 1)) then z else (z - 2 ^ (8 * Z.of_nat w))%Z.

(** The range of the signed integer type of width [w] bytes. *)
Definition in_signed (w : nat) (z : Z) : bool :=
  ((- 2 ^ (8 * Z.of_nat w - 1) <=? z) && (z <? 2 ^ (8 * Z.of_nat w - 1)))%Z.

Lemma pow256_Z w : Z.of_N (256 ^ N.of_nat w) = (2 ^ (8 * Z.of_nat w))%Z.
Proof.
  rewrite N2Z.inj_pow. replace (Z.of_N 256) with (2 ^ 8)%Z by reflexivity.
  rewrite <- Z.pow_mul_r by lia. f_equal. lia.
Qed.

Lemma z2u_lt w z : (z2u w z < 256 ^ N.of_nat w)%N.
Proof.
  unfold z2u. pose proof (pow256_Z w) as E. pose proof (pow256_pos w).
  pose proof (Z.mod_pos_bound z (2 ^ (8 * Z.of_nat w)) ltac:(lia)). lia.
Qed.

Lemma u2z_z2u w z : (0 < w)%nat -> in_signed w z = true -> u2z w (z2u w z) = z.
Proof.
  intros Hw Hin. unfold in_signed in Hin. apply andb_true_iff in Hin as [H1 H2].
  apply Z.leb_le in H1. apply Z.ltb_lt in H2.
  unfold u2z, z2u.
  set (H := (2 ^ (8 * Z.of_nat w - 1))%Z) in *.
  assert (E : (2 ^ (8 * Z.of_nat w) = 2 * H)%Z).
  { unfold H. rewrite <- Z.pow_succ_r by lia. f_equal. lia. }
  assert (HP : (0 < H)%Z) by (unfold H; apply Z.pow_pos_nonneg; lia).
  rewrite E.
  pose proof (Z.mod_pos_bound z (2 * H) ltac:(lia)) as Hb.
  rewrite Z2N.id by lia.
  destruct (Z.ltb_spec z 0) as [Hn|Hn].
  - assert (Em : (z mod (2 * H) = z + 2 * H)%Z).
    { symmetry. apply (Z.mod_unique z (2 * H) (-1)); lia. }
    rewrite Em. destruct (Z.ltb_spec (z + 2 * H) H); lia.
  - rewrite Z.mod_small by lia. destruct (Z.ltb_spec z H); lia.
Qed.

Lemma u2z_in_signed w n :
  (0 < w)%nat -> (n < 256 ^ N.of_nat w)%N -> in_signed w (u2z w n) = true.
Proof.
  intros Hw Hn. pose proof (pow256_Z w) as EP. unfold in_signed, u2z.
  set (H := (2 ^ (8 * Z.of_nat w - 1))%Z) in *.
  assert (E : (2 ^ (8 * Z.of_nat w) = 2 * H)%Z).
  { unfold H. rewrite <- Z.pow_succ_r by lia. f_equal. lia. }
  assert (HP : (0 < H)%Z) by (unfold H; apply Z.pow_pos_nonneg; lia).
  rewrite E in *. destruct (Z.ltb_spec (Z.of_N n) H); lia.
Qed.

(** * Slices *)

(** [&data[a..b]] (memory_map.rs:126-128 and the decoders): [None] is the
    panic of an out-of-range or reversed range. *)
Definition slice (a b : N) (l : bytes) : option bytes :=
  if (a <=? b)%N && (b <=? len l)%N
  then Some (take (N.to_nat (b - a)) (drop (N.to_nat a) l)) else None.

(** [data[a..a+d.len()].copy_from_slice(d)] (memory_map.rs:103-104):
    [None] is the out-of-range panic. *)
Definition splice (a : N) (d l : bytes) : option bytes :=
  if (a + len d <=? len l)%N
  then Some (take (N.to_nat a) l ++ d ++ drop (N.to_nat (a + len d)) l) else None.

Lemma len_app a b : len (a ++ b) = (len a + len b)%N.
Proof. unfold len. rewrite app_length. lia. Qed.

Lemma len_nil : len [] = 0%N.
Proof. reflexivity. Qed.

Lemma len_cons x l : len (x :: l) = (1 + len l)%N.
Proof. unfold len. cbn [length]. lia. Qed.

Lemma len_drop n l : len (drop n l) = (len l - N.of_nat n)%N.
Proof. unfold len. rewrite drop_length. lia. Qed.

Lemma len_take n l : len (take n l) = N.min (N.of_nat n) (len l).
Proof. unfold len. rewrite take_length. lia. Qed.

Lemma to_nat_len l : N.to_nat (len l) = length l.
Proof. unfold len. lia. Qed.

Lemma len_replicate n x : len (replicate n x) = N.of_nat n.
Proof. unfold len. rewrite replicate_length. reflexivity. Qed.

(** Characterisation of [slice] on a concatenation. *)
Lemma slice_mid p m s : slice (len p) (len p + len m) (p ++ m ++ s) = Some m.
Proof.
  unfold slice. rewrite !len_app.
  destruct (N.leb_spec (len p) (len p + len m)); [|lia].
  destruct (N.leb_spec (len p + len m) (len p + (len m + len s))); [|lia].
  cbn [andb]. f_equal.
  rewrite to_nat_len, drop_app_alt by reflexivity.
  apply take_app_alt. unfold len. lia.
Qed.

Lemma slice_len a b l m : slice a b l = Some m -> len m = (b - a)%N.
Proof.
  unfold slice. destruct (N.leb_spec a b); cbn [andb]; [|discriminate].
  destruct (N.leb_spec b (len l)); [|discriminate].
  intros [= <-]. rewrite len_take, len_drop. lia.
Qed.

(** Characterisation of [splice] on a concatenation. *)
Lemma splice_mid p m s d : len d = len m -> splice (len p) d (p ++ m ++ s) = Some (p ++ d ++ s).
Proof.
  intros Hd. unfold splice. rewrite !len_app.
  destruct (N.leb_spec (len p + len d) (len p + (len m + len s))); [|lia].
  f_equal.
  rewrite to_nat_len, take_app_alt by reflexivity.
  rewrite app_assoc, (app_assoc p m s), drop_app_alt; [rewrite <- app_assoc; reflexivity|].
  rewrite app_length. unfold len in *. lia.
Qed.

Lemma splice_len a d l l' : splice a d l = Some l' -> len l' = len l.
Proof.
  unfold splice. destruct (N.leb_spec (a + len d) (len l)); [|discriminate].
  intros [= <-]. rewrite !len_app, len_take, len_drop. lia.
Qed.

(** Rust results: [Ok], [Err e] and a panic. *)
Inductive res (E A : Type) : Type :=
| ROk (a : A)
| RErr (e : E)
| RPanic.
Arguments ROk {E A} a.
Arguments RErr {E A} e.
Arguments RPanic {E A}.
