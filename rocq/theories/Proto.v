(** The protobuf message stored for every entry.

    Models src/protos/kv.proto (message KV { string key = 1; int32 type = 2;
    bytes value = 3; }) as serialised and parsed by the code generated by
    rust-protobuf 3 (build.rs), which is called at src/core/buffer.rs:50-57
    ([parse_from_bytes], [write_to_bytes]).

    Simplifications: unknown fields are skipped and not re-emitted; groups
    (wire type 3) are a parse error; varints longer than 64 bits are reduced
    modulo 2^64; the protobuf library's message size limit is not modelled
    (theorems bound the sizes instead). *)
From Verif Require Import Bytes Utf8.
Local Open Scope N_scope.

(** src/protos/kv.proto:3-7, src/core/buffer.rs:11-13 ([Buffer(KV)]). *)
Record kv := KV { kv_key : bytes; kv_type : Z; kv_value : bytes }.

(** Base-128 varint, at most [fuel] bytes (10 bytes hold any u64). *)
Fixpoint varint_aux (fuel : nat) (n : N) : bytes :=
  match fuel with
  | O => []
  | S f => if n <? 128 then [n2b n] else n2b (n mod 128 + 128) :: varint_aux f (n / 128)
  end.
Definition varint (n : N) : bytes := varint_aux 10 n.

(** Reading a varint of at most [fuel] bytes; [None] is a decoding error
    (end of input or too long). *)
Fixpoint read_varint_aux (fuel : nat) (l : bytes) : option (N * bytes) :=
  match fuel, l with
  | S f, b :: r =>
      if b2n b <? 128 then Some (b2n b, r)
      else match read_varint_aux f r with
           | Some (v, r') => Some (b2n b - 128 + 128 * v, r')
           | None => None
           end
  | _, _ => None
  end.
Definition read_varint (l : bytes) : option (N * bytes) := read_varint_aux 10 l.

(** Generated [write_to_with_cached_sizes]: proto3 omits default values; an
    int32 is written as the varint of its 64-bit sign extension.
    Called by src/core/buffer.rs:55-57. *)
Definition encode_kv (m : kv) : bytes :=
  (match kv_key m with [] => [] | _ => n2b 10 :: varint (len (kv_key m)) ++ kv_key m end)
  ++ (if Z.eqb (kv_type m) 0 then [] else n2b 16 :: varint (z2u 8 (kv_type m)))
  ++ (match kv_value m with [] => [] | _ => n2b 26 :: varint (len (kv_value m)) ++ kv_value m end).

(** A length-delimited field body: varint32 length, then that many bytes. *)
Definition read_delimited (l : bytes) : option (bytes * bytes) :=
  match read_varint l with
  | Some (n, r) =>
      let n := n mod 2 ^ 32 in
      if n <=? len r then Some (take (N.to_nat n) r, drop (N.to_nat n) r) else None
  | None => None
  end.

(** Skipping an unknown field (rust-protobuf [read_unknown_or_skip_group]). *)
Definition skip_unknown (tag : N) (r : bytes) : option bytes :=
  if tag / 8 =? 0 then None else
  match tag mod 8 with
  | 0 => match read_varint r with Some (_, r') => Some r' | None => None end
  | 1 => if 8 <=? len r then Some (drop 8 r) else None
  | 2 => match read_delimited r with Some (_, r') => Some r' | None => None end
  | 5 => if 4 <=? len r then Some (drop 4 r) else None
  | _ => None
  end.

(** One iteration of the generated [merge_from] loop. *)
Definition parse_field (l : bytes) (acc : kv) : option (kv * bytes) :=
  match read_varint l with
  | None => None
  | Some (t, r) =>
      let tag := t mod 2 ^ 32 in
      if tag =? 10 then
        match read_delimited r with
        | Some (s, r') => if utf8_valid s then Some (KV s (kv_type acc) (kv_value acc), r') else None
        | None => None
        end
      else if tag =? 16 then
        match read_varint r with
        | Some (v, r') => Some (KV (kv_key acc) (u2z 4 (v mod 2 ^ 32)) (kv_value acc), r')
        | None => None
        end
      else if tag =? 26 then
        match read_delimited r with
        | Some (s, r') => Some (KV (kv_key acc) (kv_type acc) s, r')
        | None => None
        end
      else match skip_unknown tag r with
           | Some r' => Some (acc, r')
           | None => None
           end
  end.

(** Generated [merge_from]: fields until the end of the input. *)
Fixpoint parse_aux (fuel : nat) (l : bytes) (acc : kv) : option kv :=
  match l with
  | [] => Some acc
  | _ => match fuel with
         | O => None
         | S f => match parse_field l acc with
                  | Some (acc', r) => parse_aux f r acc'
                  | None => None
                  end
         end
  end.

(** src/core/buffer.rs:50-53 ([KV::parse_from_bytes]); the fuel is never
    exhausted ([parse_aux_fuel] in ProtoFacts.v). *)
Definition parse_kv (l : bytes) : option kv := parse_aux (length l) l (KV [] 0 []).
