(** Record encoders/decoders: the plain CRC one and the encrypted one.

    Models src/core/buffer.rs:15-26 (traits [Encoder], [Decoder]),
    src/core/crc.rs:13-49 and src/core/encrypt.rs:105-166.  Arithmetic is that
    of a release build (wrapping); [RPanic] is a panic. *)
From Verif Require Import Bytes Utf8 Proto ProtoFacts Crc8 Value.
From Coq Require Import ZifyBool ZifyNat ZifyN.
Ltac Zify.zify_post_hook ::= Z.div_mod_to_equations.
Local Open Scope N_scope.

(** The traits [Encoder] and [Decoder] (buffer.rs:15-26): encode an entry at
    a position (u32); decode the start of the given bytes at a position into
    an optional entry ([None]: damaged, logged and skipped) and the number of
    bytes consumed (u32). *)
Record codec := Codec {
  enc : kv -> N -> res err bytes;
  dec : bytes -> N -> res err (option kv * N)
}.

(** ** src/core/crc.rs *)

(** crc.rs:14-22: u32 length of payload plus checksum, payload, checksum. *)
Definition crc_enc (m : kv) (_ : N) : res err bytes :=
  let b := encode_kv m in
  ROk (be 4 ((len b mod 2 ^ 32 + 1) mod 2 ^ 32) ++ b ++ [n2b (crc8 b)]).

(** crc.rs:26-48. *)
Definition crc_dec (data : bytes) (_ : N) : res err (option kv * N) :=
  match slice 0 4 data with
  | None => RPanic
  | Some h =>
      let item_len := unbe h in
      match slice 4 (4 + item_len - 1) data with
      | None => RPanic
      | Some body =>
          match data !! N.to_nat (4 + item_len - 1) with
          | None => RPanic
          | Some sum =>
              ROk (if crc8 body =? b2n sum then parse_kv body else None, (4 + item_len) mod 2 ^ 32)
          end
      end
  end.

Definition crc_codec : codec := Codec crc_enc crc_dec.

(** ** src/core/encrypt.rs *)

(** The block cipher mode AES-128-EAX with an 8 byte tag (encrypt.rs:21) is
    abstract: any pair of functions of key, 16 byte nonce and message. *)
Record aead := Aead {
  seal : bytes -> bytes -> bytes -> option bytes;
  unseal : bytes -> bytes -> bytes -> option bytes
}.

(** [StreamBE32] (encrypt.rs:22): nonce, big-endian u32 counter, last-block flag (false). *)
Definition stream_nonce (nonce : bytes) (pos : N) : bytes := nonce ++ be 4 pos ++ [x00].

(** [Stream::COUNTER_MAX] = u32::MAX (encrypt.rs:106,119). *)
Definition counter_max : N := 2 ^ 32 - 1.

(** [StreamWrapper::encrypt] (encrypt.rs:105-116). *)
Definition stream_encrypt (A : aead) (key nonce b : bytes) (pos : N) : res err bytes :=
  if pos =? counter_max then RErr EncryptFailed
  else match seal A key (stream_nonce nonce pos) b with Some c => ROk c | None => RErr EncryptFailed end.

(** [StreamWrapper::decrypt] (encrypt.rs:118-129). *)
Definition stream_decrypt (A : aead) (key nonce c : bytes) (pos : N) : res err bytes :=
  if pos =? counter_max then RErr DecryptFailed
  else match unseal A key (stream_nonce nonce pos) c with Some b => ROk b | None => RErr DecryptFailed end.

(** encrypt.rs:132-141. *)
Definition aes_enc (A : aead) (key nonce : bytes) (m : kv) (pos : N) : res err bytes :=
  match stream_encrypt A key nonce (encode_kv m) pos with
  | ROk c => ROk (be 4 (len c mod 2 ^ 32) ++ c)
  | RErr e => RErr e
  | RPanic => RPanic
  end.

(** encrypt.rs:143-166. *)
Definition aes_dec (A : aead) (key nonce : bytes) (data : bytes) (pos : N) : res err (option kv * N) :=
  match slice 0 4 data with
  | None => RPanic
  | Some h =>
      let item_len := unbe h in
      match slice 4 (4 + item_len) data with
      | None => RPanic
      | Some body =>
          ROk (match stream_decrypt A key nonce body pos with
               | ROk b => parse_kv b
               | _ => None
               end, (4 + item_len) mod 2 ^ 32)
      end
  end.

Definition aes_codec (A : aead) (key nonce : bytes) : codec := Codec (aes_enc A key nonce) (aes_dec A key nonce).

(** * Laws *)

(** What the rest of the development needs of a record format: an entry of
    encoded size [sz m] at an admissible position is encoded in exactly that
    many bytes, and decoding these bytes, whatever follows them, gives the
    entry back and consumes exactly them. *)
Record codec_law (C : codec) (pos_ok : N -> Prop) (sz : kv -> N) : Prop := {
  law_rt : forall m p tail, kv_ok m = true -> sz m < 2 ^ 32 -> pos_ok p ->
    exists b, enc C m p = ROk b /\ len b = sz m /\ dec C (b ++ tail) p = ROk (Some m, sz m);
  law_min : forall m, 5 <= sz m
}.

Definition crc_size (m : kv) : N := len (encode_kv m) + 5.

Lemma crc_enc_shape m p : crc_size m < 2 ^ 32 ->
  enc crc_codec m p = ROk (be 4 (len (encode_kv m) + 1) ++ encode_kv m ++ [n2b (crc8 (encode_kv m))]).
Proof.
  unfold crc_size. intros H. cbn [enc crc_codec]. unfold crc_enc. cbv zeta.
  rewrite (N.mod_small (len (encode_kv m))) by lia.
  rewrite (N.mod_small (len (encode_kv m) + 1)) by lia. reflexivity.
Qed.

Lemma slice_head p s : slice 0 (len p) (p ++ s) = Some p.
Proof. exact (slice_mid [] p s). Qed.

(** Decoding a framed body. *)
Lemma crc_dec_frame body c tail p :
  len body + 5 < 2 ^ 32 ->
  dec crc_codec (be 4 (len body + 1) ++ body ++ c :: tail) p
  = ROk (if crc8 body =? b2n c then parse_kv body else None, len body + 5).
Proof.
  intros H. cbn [dec crc_codec]. unfold crc_dec.
  pose proof (slice_head (be 4 (len body + 1)) (body ++ c :: tail)) as E. rewrite len_be in E.
  change (N.of_nat 4) with 4 in E. rewrite E. cbv zeta.
  rewrite unbe_be_small by (change (256 ^ N.of_nat 4) with (2 ^ 32); lia).
  replace (4 + (len body + 1) - 1) with (4 + len body) by lia.
  pose proof (slice_mid (be 4 (len body + 1)) body (c :: tail)) as E2. rewrite len_be in E2.
  change (N.of_nat 4) with 4 in E2. rewrite E2.
  assert (E3 : (be 4 (len body + 1) ++ body ++ c :: tail) !! N.to_nat (4 + len body) = Some c).
  { rewrite app_assoc. apply list_lookup_middle. rewrite app_length, be_length. unfold len. lia. }
  rewrite E3. f_equal. f_equal. rewrite N.mod_small by lia. lia.
Qed.

Lemma crc_law : codec_law crc_codec (fun _ => True) crc_size.
Proof.
  split.
  - intros m p tail Hok Hsz _. eexists. split; [apply crc_enc_shape, Hsz|].
    unfold crc_size in *. split.
    + rewrite !len_app, len_be. cbn [len length]. unfold len. cbn [length]. lia.
    + rewrite <- !app_assoc. cbn [app].
      rewrite (crc_dec_frame (encode_kv m)) by exact Hsz.
      rewrite b2n_n2b, N.mod_small, N.eqb_refl, parse_encode by (apply crc8_lt || exact Hok). reflexivity.
  - intros m. unfold crc_size. lia.
Qed.

(** The laws an authenticated cipher with an 8 byte tag satisfies: it
    decrypts what it encrypted. *)
Definition aead_correct (A : aead) : Prop :=
  forall key nonce b, len b < 2 ^ 32 ->
    exists c, seal A key nonce b = Some c /\ len c = len b + 8 /\ unseal A key nonce c = Some b.

Definition aes_size (m : kv) : N := len (encode_kv m) + 12.

Lemma aes_dec_frame A key nonce body tail p :
  len body + 4 < 2 ^ 32 ->
  dec (aes_codec A key nonce) (be 4 (len body) ++ body ++ tail) p
  = ROk (match stream_decrypt A key nonce body p with ROk b => parse_kv b | _ => None end, len body + 4).
Proof.
  intros H. cbn [dec aes_codec]. unfold aes_dec.
  pose proof (slice_head (be 4 (len body)) (body ++ tail)) as E. rewrite len_be in E.
  change (N.of_nat 4) with 4 in E. rewrite E. cbv zeta.
  rewrite unbe_be_small by (change (256 ^ N.of_nat 4) with (2 ^ 32); lia).
  pose proof (slice_mid (be 4 (len body)) body tail) as E2. rewrite len_be in E2.
  change (N.of_nat 4) with 4 in E2. rewrite E2.
  f_equal. f_equal. rewrite N.mod_small by lia. lia.
Qed.

Lemma aes_law A key nonce : aead_correct A ->
  codec_law (aes_codec A key nonce) (fun p => p < counter_max) aes_size.
Proof.
  intros HA. split.
  - intros m p tail Hok Hsz Hp. unfold aes_size in *.
    destruct (HA key (stream_nonce nonce p) (encode_kv m) ltac:(lia)) as (c & Hs & Hl & Hu).
    assert (Hne : (p =? counter_max) = false) by (apply N.eqb_neq; lia).
    exists (be 4 (len c) ++ c). split; [|split].
    + cbn [enc aes_codec]. unfold aes_enc, stream_encrypt. rewrite Hne, Hs.
      rewrite N.mod_small by lia. reflexivity.
    + rewrite len_app, len_be, Hl. lia.
    + rewrite <- app_assoc, aes_dec_frame by lia.
      unfold stream_decrypt. rewrite Hne, Hu, parse_encode by exact Hok. f_equal. f_equal. lia.
  - intros m. unfold aes_size. lia.
Qed.

(** A cipher satisfying [aead_correct], to show the laws can be met: the tag
    is the first 8 bytes of key xor-free digest [be 8 (unbe key + unbe nonce)]. *)
Definition toy_tag (key nonce : bytes) : bytes := be 8 (unbe key + unbe nonce).
Definition toy_aead : aead := {|
  seal := fun key nonce b => Some (b ++ toy_tag key nonce);
  unseal := fun key nonce c =>
    if (8 <=? len c) && bool_decide (drop (length c - 8) c = toy_tag key nonce)
    then Some (take (length c - 8) c) else None
|}.

Lemma toy_aead_correct : aead_correct toy_aead.
Proof.
  intros key nonce b _. exists (b ++ toy_tag key nonce). cbn [seal unseal toy_aead].
  assert (L : length (toy_tag key nonce) = 8%nat) by apply be_length.
  split; [reflexivity|]. split; [rewrite len_app; unfold len at 2; rewrite L; reflexivity|].
  rewrite len_app, app_length, L. unfold len at 2. rewrite L.
  destruct (N.leb_spec 8 (len b + N.of_nat 8)); [|lia]. cbn [andb].
  replace (length b + 8 - 8)%nat with (length b) by lia.
  rewrite drop_app_alt, take_app_alt by reflexivity. rewrite bool_decide_eq_true_2 by reflexivity. reflexivity.
Qed.
