(** Typed values and their conversion to and from stored entries.

    Models src/core/buffer.rs ([ToBytes], [FromBytes], [ProvideTypeToken],
    [TypeToken], [Buffer]) and src/lib.rs:20-33 ([Error]). *)
From Verif Require Import Bytes Utf8 Proto.
Local Open Scope N_scope.

(** src/lib.rs:20-33 (the payload strings of some errors are dropped). *)
Inductive err :=
| KeyNotFound | DecodeFailed | TypeMissMatch | DataInvalid | InstanceClosed
| EncodeFailed | IOError | LockError | DecryptFailed | EncryptFailed.

Global Instance err_eq_dec : EqDecision err.
Proof. solve_decision. Defined.

(** The Rust types for which [ToBytes]/[FromBytes]/[ProvideTypeToken] are
    implemented (buffer.rs:137-270, 280-350); [TUser tok] is a user-defined
    type whose [type_token] returns [TypeToken::new(tok)].  [&T] behaves as
    [T] (buffer.rs:137-159); [&str]/[String], [&[u8]]/[Vec<u8>] and
    [&[t]]/[Vec<t>] share their token and encoding. *)
Inductive ty :=
| TI32 | TStr | TBool | TI64 | TF32 | TF64 | TBytes
| TI32s | TI64s | TF32s | TF64s | TUser (tok : Z).

Global Instance ty_eq_dec : EqDecision ty.
Proof. solve_decision. Defined.

(** Values.  Floats are their IEEE-754 bit patterns; a string is its UTF-8
    bytes; a user value is what its serializer produces. *)
Inductive value :=
| VI32 (z : Z) | VStr (s : bytes) | VBool (b : bool) | VI64 (z : Z)
| VF32 (n : N) | VF64 (n : N) | VBytes (s : bytes)
| VI32s (l : list Z) | VI64s (l : list Z) | VF32s (l : list N) | VF64s (l : list N)
| VUser (tok : Z) (s : bytes).

Definition type_of (v : value) : ty :=
  match v with
  | VI32 _ => TI32 | VStr _ => TStr | VBool _ => TBool | VI64 _ => TI64
  | VF32 _ => TF32 | VF64 _ => TF64 | VBytes _ => TBytes
  | VI32s _ => TI32s | VI64s _ => TI64s | VF32s _ => TF32s | VF64s _ => TF64s
  | VUser t _ => TUser t
  end.

(** The values a Rust program can have: integers in range, bit patterns of
    the right width, strings well-formed UTF-8, an i32 user token. *)
Definition value_ok (v : value) : bool :=
  match v with
  | VI32 z => in_signed 4 z
  | VI64 z => in_signed 8 z
  | VF32 n => n <? 2 ^ 32
  | VF64 n => n <? 2 ^ 64
  | VStr s => utf8_valid s
  | VBool _ | VBytes _ => true
  | VI32s l => forallb (in_signed 4) l
  | VI64s l => forallb (in_signed 8) l
  | VF32s l => forallb (fun n => n <? 2 ^ 32) l
  | VF64s l => forallb (fun n => n <? 2 ^ 64) l
  | VUser t _ => in_signed 4 t
  end.

(** [InnerTypes::Deleted.value()] (buffer.rs:97). *)
Definition deleted_token : Z := 100.

(** [InnerTypes::reserved] (buffer.rs:105-107). *)
Definition reserved (t : Z) : bool := ((0 <=? t) && (t <=? 100))%Z.

(** [TypeToken::new] (buffer.rs:119-124): panics on a reserved token. *)
Definition type_token_new (t : Z) : res err Z := if reserved t then RPanic else ROk t.

(** [T::type_token()] (buffer.rs:85-98, 161-270). *)
Definition type_token (t : ty) : res err Z :=
  match t with
  | TI32 => ROk 0%Z | TStr => ROk 1%Z | TBool => ROk 2%Z | TI64 => ROk 3%Z
  | TF32 => ROk 4%Z | TF64 => ROk 5%Z | TBytes => ROk 6%Z
  | TI32s => ROk 7%Z | TI64s => ROk 8%Z | TF32s => ROk 9%Z | TF64s => ROk 10%Z
  | TUser tok => type_token_new tok
  end.

(** [ToBytes::to_bytes] (buffer.rs:173-270). *)
Definition to_bytes (v : value) : bytes :=
  match v with
  | VI32 z => be 4 (z2u 4 z)
  | VI64 z => be 8 (z2u 8 z)
  | VF32 n => be 4 n
  | VF64 n => be 8 n
  | VStr s => s
  | VBool b => [if b then x01 else x00]
  | VBytes s => s
  | VI32s l => concat (map (fun z => be 4 (z2u 4 z)) l)
  | VI64s l => concat (map (fun z => be 8 (z2u 8 z)) l)
  | VF32s l => concat (map (be 4) l)
  | VF64s l => concat (map (be 8) l)
  | VUser _ s => s
  end.

(** [FromBytes] of a number of [w] bytes (buffer.rs:298-314): the slice
    [bytes[0..w]] panics when there are fewer bytes; more are ignored. *)
Definition number (w : nat) (b : bytes) : res err N :=
  match slice 0 (N.of_nat w) b with Some s => ROk (unbe s) | None => RPanic end.

(** [FromBytes] of a typed array (buffer.rs:323-346): the [n] chunks of [w] bytes. *)
Fixpoint chunks (w n : nat) (b : bytes) : list N :=
  match n with O => [] | S n' => unbe (take w b) :: chunks w n' (drop w b) end.

Definition numbers (w : nat) (b : bytes) : res err (list N) :=
  if (len b mod N.of_nat w =? 0) then ROk (chunks w (N.to_nat (len b / N.of_nat w)) b) else RErr DataInvalid.

Definition res_map {A B} (f : A -> B) (r : res err A) : res err B :=
  match r with ROk a => ROk (f a) | RErr e => RErr e | RPanic => RPanic end.

(** [FromBytes::from_bytes] (buffer.rs:280-352); a user deserializer is
    represented by the bytes it is given. *)
Definition from_bytes (t : ty) (b : bytes) : res err value :=
  match t with
  | TI32 => res_map (fun n => VI32 (u2z 4 n)) (number 4 b)
  | TI64 => res_map (fun n => VI64 (u2z 8 n)) (number 8 b)
  | TF32 => res_map VF32 (number 4 b)
  | TF64 => res_map VF64 (number 8 b)
  | TStr => if utf8_valid b then ROk (VStr b) else RErr DataInvalid
  | TBool => match b with [] => RPanic | c :: _ => ROk (VBool (b2n c =? 1)) end
  | TBytes => ROk (VBytes b)
  | TI32s => res_map (fun l => VI32s (map (u2z 4) l)) (numbers 4 b)
  | TI64s => res_map (fun l => VI64s (map (u2z 8) l)) (numbers 8 b)
  | TF32s => res_map VF32s (numbers 4 b)
  | TF64s => res_map VF64s (numbers 8 b)
  | TUser tok => ROk (VUser tok b)
  end.

(** [Buffer::new] (buffer.rs:29-39). *)
Definition buffer_new (key : bytes) (v : value) : res err kv :=
  res_map (fun t => KV key t (to_bytes v)) (type_token (type_of v)).

(** [Buffer::deleted_buffer] (buffer.rs:46-48). *)
Definition deleted_buffer (key : bytes) : kv := KV key deleted_token [].

(** [Buffer::is_deleting] (buffer.rs:68-70). *)
Definition is_deleting (m : kv) : bool := Z.eqb (kv_type m) deleted_token.

(** [Buffer::parse] with [check_buffer_type] (buffer.rs:41-44, 72-81). *)
Definition buffer_parse (m : kv) (t : ty) : res err value :=
  match type_token t with
  | ROk tok =>
      if is_deleting m then RErr KeyNotFound
      else if Z.eqb tok (kv_type m) then from_bytes t (kv_value m)
      else RErr TypeMissMatch
  | RErr e => RErr e
  | RPanic => RPanic
  end.

(** * Facts *)

Lemma chunks_concat {A} (f : A -> N) w (l : list A) :
  (0 < w)%nat -> Forall (fun a => f a < 256 ^ N.of_nat w) l ->
  chunks w (length l) (concat (map (fun a => be w (f a)) l)) = map f l.
Proof.
  intros Hw. induction 1 as [|a l Ha Hl IH]; [reflexivity|].
  cbn [map concat length chunks].
  rewrite take_app_alt, drop_app_alt by (rewrite be_length; reflexivity).
  rewrite unbe_be_small by exact Ha. f_equal. exact IH.
Qed.

Lemma concat_be_len {A} (f : A -> N) w (l : list A) :
  len (concat (map (fun a => be w (f a)) l)) = N.of_nat w * N.of_nat (length l).
Proof.
  induction l as [|a l IH]; [cbn; lia|].
  cbn [map concat length]. rewrite len_app, len_be, IH. lia.
Qed.

Lemma numbers_concat {A} (f : A -> N) w (l : list A) :
  (0 < w)%nat -> Forall (fun a => f a < 256 ^ N.of_nat w) l ->
  numbers w (concat (map (fun a => be w (f a)) l)) = ROk (map f l).
Proof.
  intros Hw Hl. unfold numbers. rewrite concat_be_len.
  rewrite N.mul_comm, N.mod_mul, N.div_mul by lia.
  cbv iota. rewrite N.eqb_refl, Nat2N.id, chunks_concat by assumption. reflexivity.
Qed.

Lemma number_be w n : n < 256 ^ N.of_nat w -> number w (be w n) = ROk n.
Proof.
  intros Hn. unfold number, slice. rewrite len_be, N.leb_refl.
  destruct (N.leb_spec 0 (N.of_nat w)); [|lia]. cbn [andb].
  rewrite N.sub_0_r, Nat2N.id, drop_0, take_ge by (rewrite be_length; lia).
  rewrite unbe_be_small by exact Hn. reflexivity.
Qed.

Lemma map_u2z_z2u w l : (0 < w)%nat -> forallb (in_signed w) l = true -> map (u2z w) (map (z2u w) l) = l.
Proof.
  intros Hw. induction l as [|z l IH]; intros H; [reflexivity|].
  cbn in H. apply andb_true_iff in H as [H1 H2]. cbn [map]. rewrite u2z_z2u, IH by assumption. reflexivity.
Qed.

Lemma from_to_bytes v : value_ok v = true -> from_bytes (type_of v) (to_bytes v) = ROk v.
Proof.
  destruct v as [z|s|b|z|n|n|s|l|l|l|l|t s]; cbn [value_ok type_of to_bytes from_bytes]; intros H.
  - rewrite number_be by apply z2u_lt. cbn. rewrite u2z_z2u by (lia || exact H). reflexivity.
  - rewrite H. reflexivity.
  - destruct b; reflexivity.
  - rewrite number_be by apply z2u_lt. cbn [res_map]. rewrite u2z_z2u by (lia || exact H). reflexivity.
  - apply N.ltb_lt in H. rewrite number_be by exact H. reflexivity.
  - apply N.ltb_lt in H. rewrite number_be by exact H. reflexivity.
  - reflexivity.
  - rewrite (numbers_concat (z2u 4)); [|lia|]; cbn [res_map].
    + rewrite map_u2z_z2u by (lia || exact H). reflexivity.
    + apply Forall_true. intros z. apply z2u_lt.
  - rewrite (numbers_concat (z2u 8)); [|lia|]; cbn [res_map].
    + rewrite map_u2z_z2u by (lia || exact H). reflexivity.
    + apply Forall_true. intros z. apply z2u_lt.
  - rewrite (numbers_concat (fun n => n)); [|lia|]; cbn [res_map].
    + rewrite map_id. reflexivity.
    + apply Forall_forall. intros n Hn. rewrite forallb_forall in H.
      apply elem_of_list_In in Hn. apply H, N.ltb_lt in Hn. exact Hn.
  - rewrite (numbers_concat (fun n => n)); [|lia|]; cbn [res_map].
    + rewrite map_id. reflexivity.
    + apply Forall_forall. intros n Hn. rewrite forallb_forall in H.
      apply elem_of_list_In in Hn. apply H, N.ltb_lt in Hn. exact Hn.
  - reflexivity.
Qed.

(** Distinct types have distinct tokens, and none is the deletion marker. *)
Lemma type_token_inj t t' k : type_token t = ROk k -> type_token t' = ROk k -> t = t'.
Proof.
  destruct t, t'; cbn [type_token]; unfold type_token_new, reserved;
    repeat match goal with |- context [ if ?b then _ else _ ] => destruct b eqn:? end;
    intros H H'; try congruence; exfalso; injection H as H; injection H' as H'; subst; cbn in *; congruence.
Qed.

Lemma type_token_not_deleted t k : type_token t = ROk k -> k <> deleted_token.
Proof.
  unfold deleted_token. destruct t; cbn [type_token]; unfold type_token_new, reserved; try congruence.
  destruct (_ && _)%bool eqn:E; [discriminate|]. intros [= ->] ->. discriminate.
Qed.
