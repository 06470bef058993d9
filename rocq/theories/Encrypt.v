(** The encryption feature: key parsing, the nonce ("meta") file and its name.

    Models src/core/encrypt.rs:33-103.  The random generator is an oracle
    that delivers byte strings; reading the nonce file is assumed not to fail
    with an I/O error (that case takes the same path as a wrong length,
    encrypt.rs:91-97). *)
From Verif Require Import Bytes Utf8 Proto Value Codec.
From Coq Require String.
Import (notations) String.
Local Open Scope N_scope.

(** One hexadecimal digit. *)
Definition hex_digit (b : byte) : option N :=
  let n := b2n b in
  if (48 <=? n) && (n <=? 57) then Some (n - 48)
  else if (97 <=? n) && (n <=? 102) then Some (n - 87)
  else if (65 <=? n) && (n <=? 70) then Some (n - 55)
  else None.

(** [hex::decode] (encrypt.rs:35). *)
Fixpoint hex_decode (l : bytes) : option bytes :=
  match l with
  | [] => Some []
  | [_] => None
  | a :: b :: r =>
      match hex_digit a, hex_digit b, hex_decode r with
      | Some x, Some y, Some t => Some (n2b (16 * x + y) :: t)
      | _, _, _ => None
      end
  end.

(** [hex::decode(key).unwrap()] and [try_into::<[u8; 16]>().unwrap()]
    (encrypt.rs:35,38); [None] is a panic. *)
Definition parse_key (key : bytes) : option bytes :=
  match hex_decode key with
  | Some k => if Nat.eqb (length k) 16 then Some k else None
  | None => None
  end.

(** encrypt.rs:19. *)
Definition nonce_len : nat := 11.

(** [StreamWrapper::init] (encrypt.rs:56-103): the nonce in use and the
    content of the meta file afterwards, from the content of the meta file
    before ([None]: no such file) and the bytes the generator would deliver. *)
Definition init_nonce (meta : option bytes) (fresh : bytes) : bytes * bytes :=
  match meta with
  | None => (fresh, fresh)                         (* StreamWrapper::new *)
  | Some n =>
      if Nat.eqb (length n) nonce_len then (n, n)  (* new_with_nonce *)
      else (fresh, fresh)                          (* error_handle: remove, StreamWrapper::new *)
  end.

(** The build configuration: feature "encryption" off or on. *)
Inductive feature := FPlain | FEncrypted (A : aead).

Definition is_encrypted (F : feature) : bool := match F with FPlain => false | FEncrypted _ => true end.

(** The encoder/decoder pair an instance uses (mmkv_impl.rs:30-40). *)
Definition feature_codec (F : feature) (key nonce : bytes) : codec :=
  match F with FPlain => crc_codec | FEncrypted A => aes_codec A key nonce end.

(** [Encryptor::init] of mmkv_impl.rs:31 without the codec itself: the parsed
    key ([None]: panic); the plain build takes no key. *)
Definition feature_key (F : feature) (key : bytes) : option bytes :=
  match F with FPlain => Some [] | FEncrypted _ => parse_key key end.

(** ** The name of the meta file *)

(** [std::path]'s rsplit_file_at_dot on a file name: the parts before and
    after the last dot. *)
Fixpoint split_last_dot (l : bytes) : option (bytes * bytes) :=
  match l with
  | [] => None
  | b :: r =>
      match split_last_dot r with
      | Some (p, s) => Some (b :: p, s)
      | None => if bool_decide (b = x2e) then Some ([], r) else None
      end
  end.

(** [Path::extension] of a file name. *)
Definition extension (name : bytes) : option bytes :=
  match split_last_dot name with
  | Some ([], _) => None
  | Some (_, ext) => Some ext
  | None => None
  end.

(** [Path::file_stem] of a file name. *)
Definition file_stem (name : bytes) : bytes :=
  match split_last_dot name with
  | Some ([], _) => name
  | Some (stem, _) => stem
  | None => name
  end.

(** [Path::with_extension]: the stem, then a dot and the extension unless it
    is empty. *)
Definition with_extension (name ext : bytes) : bytes :=
  file_stem name ++ (match ext with [] => [] | _ => x2e :: ext end).

Definition meta_str : bytes := str "meta"%string.

(** [Encryptor::resolve_meta_file_path] (encrypt.rs:45-52) on the file name
    (the directory part is untouched); [None]: the panic of
    [ext.to_str().unwrap()] on a name that is not UTF-8. *)
Definition meta_name (name : bytes) : option bytes :=
  match extension name with
  | None => Some (with_extension name meta_str)
  | Some ext => if utf8_valid ext then Some (with_extension name (ext ++ x2e :: meta_str)) else None
  end.

(** A file name as [Path::file_name] returns it: not empty, not ".", not
    "..", no separator. *)
Definition file_name_ok (name : bytes) : bool :=
  bool_decide (name <> [] /\ name <> [x2e] /\ name <> [x2e; x2e]) && forallb (fun b => negb (b2n b =? 47)) name.

(** [DEFAULT_FILE_NAME] (src/mmkv.rs:16). *)
Definition default_file_name : bytes := str "mini_mmkv"%string.

Example meta_name_default : meta_name default_file_name = Some (str "mini_mmkv.meta"%string).
Proof. reflexivity. Qed.

Example parse_key_doc :
  match parse_key (str "88C51C536176AD8A8EE4A06F62EE897E"%string) with Some k => length k = 16%nat | None => False end.
Proof. reflexivity. Qed.
