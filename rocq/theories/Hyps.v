(** The standing assumptions of the main theorems, as separate definitions. *)
From Verif Require Import Bytes Utf8 Proto Value Codec Store Encrypt World.
Local Open Scope N_scope.

(** The encoded size of an entry under each build configuration. *)
Definition record_size (F : feature) (m : kv) : N :=
  match F with FPlain => crc_size m | FEncrypted _ => aes_size m end.

(** A 64-bit platform with pages of 8 bytes to 4 GiB, a file size limit that
    fits i64, and a hash map that enumerates each value once. *)
Record plat_ok (P : plat) : Prop := {
  po_64 : usz P = 8%nat;
  po_page : 8 <= page P < 2 ^ 32;
  po_max : maxfile P < 2 ^ 63;
  po_hord : hord_ok P
}.

(** The cipher decrypts what it encrypted. *)
Definition feature_ok (F : feature) : Prop :=
  match F with FPlain => True | FEncrypted A => aead_correct A end.

(** The random generator delivers 11 bytes. *)
Record env_ok (E : env) : Prop := {
  eo_plat : plat_ok (e_plat E);
  eo_feat : feature_ok (e_feat E);
  eo_rng : forall i, length (e_rng E i) = nonce_len
}.

(** A value that can be put under a key: a Rust [&str] key, a value of its
    type, no reserved user token, and a record that fits in a page. *)
Definition put_ok (E : env) (key : bytes) (v : value) : Prop :=
  utf8_valid key = true /\ value_ok v = true /\
  exists m, buffer_new key v = ROk m /\ record_size (e_feat E) m <= page (e_plat E).

(** A type that can be asked for. *)
Definition get_ok (t : ty) : Prop := exists k, type_token t = ROk k.

(** An ordinary call.  [keyof] is the encryption key of each directory. *)
Definition call_ok (E : env) (keyof : bytes -> bytes) (e : event) : Prop :=
  match e with
  | ENew h path key =>
      e_dir_ok E path = true /\ key = keyof (e_canon E path) /\ feature_key (e_feat E) key <> None
  | EPut h key v => put_ok E key v
  | EGet h key t => get_ok t
  | EDelete _ _ | EClear _ | EDrop _ | EIo _ => True
  | _ => False
  end.

(** The paths opened in a trace. *)
Definition paths (es : list event) : list bytes :=
  flat_map (fun e => match e with ENew _ p _ => [p] | _ => [] end) es.

(** Every directory is always opened through the same text. *)
Definition one_spelling (E : env) (es : list event) : Prop :=
  forall p p', In p (paths es) -> In p' (paths es) -> e_canon E p = e_canon E p' -> p = p'.

(** The number of calls that may write a record. *)
Definition is_write (e : event) : bool :=
  match e with EPut _ _ _ | EDelete _ _ => true | _ => false end.
Definition writes (es : list event) : N := N.of_nat (length (List.filter is_write es)).

(** Room for [n] writes: the file size limit is out of reach, and so is the
    u32 record counter of the encrypted format. *)
Definition room (E : env) (n : N) : Prop :=
  page (e_plat E) * (1 + n * (1 + page (e_plat E))) <= maxfile (e_plat E) /\
  match e_feat E with FPlain => True | FEncrypted _ => n < 2 ^ 32 - 1 end.

(** An ordinary trace: a sane environment and only ordinary calls. *)
Record ordinary (E : env) (keyof : bytes -> bytes) (es : list event) : Prop := {
  or_env : env_ok E;
  or_calls : Forall (call_ok E keyof) es;
  or_paths : one_spelling E es;
  or_room : room E (writes es)
}.
