(** The data file, its memory map and the background writer.

    Models src/core/memory_map.rs, src/core/iter.rs, src/core/config.rs
    (expand) and src/core/writer.rs.

    A file is a byte string.  The memory map is a shared view ([MAP_SHARED])
    of the first [s_ml] bytes of the file.  A Rust panic is modelled by the
    boolean [false] in the result; the state returned with it is the state at
    the moment of the panic, so half-done updates are visible.

    Simplifications: [usize] wraps as in a release build; msync, sync_all,
    madvise and MAP_POPULATE have no effect on contents and never fail;
    set_len fails exactly beyond the size limit [maxfile]; log output is modelled
    in Logging.v, not here. *)
From Verif Require Import Bytes Utf8 Proto Value Codec.
Local Open Scope N_scope.

(** The platform: size of [usize] in bytes (8, or 4 on 32-bit targets), page
    size ([page_size()], src/mmkv.rs:18-31) and the order in which Rust's
    randomised [HashMap] enumerates its values the [i]-th time it is asked
    (an arbitrary oracle); [maxfile] is the largest size the file system (or
    RLIMIT_FSIZE) allows for a file. *)
Record plat := Plat { usz : nat; page : N; maxfile : N; hord : N -> gmap bytes kv -> list kv }.

(** What the oracle must satisfy: it lists the values, each once. *)
Definition hord_ok (P : plat) : Prop :=
  forall i m, Permutation (hord P i m) (map snd (map_to_list m)).

Definition modulus (P : plat) : N := 256 ^ N.of_nat (usz P).

(** memory_map.rs:7. *)
Definition len_offset : N := 8.

Definition zeros (n : N) : bytes := replicate (N.to_nat n) x00.

(** ** File effects

    Every change the writer makes to the file is one of these two; the list
    of effects is kept as a ghost log for the crash theorems (Crash.v). *)
Inductive eff :=
| FStore (a : N) (d : bytes)  (* copy_from_slice into the map *)
| FExtend (n : N).            (* set_len to a larger size: zero filled *)

Definition apply_eff (e : eff) (f : bytes) : bytes :=
  match e with
  | FStore a d => take (N.to_nat a) f ++ d ++ drop (N.to_nat (a + len d)) f
  | FExtend n => f ++ zeros n
  end.

(** ** Writer state: writer.rs:9-16 with the file it maps.  [s_seed] counts
    the uses of the enumeration oracle. *)
Record st := St {
  s_file : bytes; s_ml : N; s_pos : N; s_trim : bool; s_seed : N; s_eff : list eff
}.

Definition with_pos (s : st) (p : N) : st := St (s_file s) (s_ml s) p (s_trim s) (s_seed s) (s_eff s).
Definition with_trim (s : st) (t : bool) : st := St (s_file s) (s_ml s) (s_pos s) t (s_seed s) (s_eff s).
Definition with_seed (s : st) (i : N) : st := St (s_file s) (s_ml s) (s_pos s) (s_trim s) i (s_eff s).
Definition do_eff (e : eff) (s : st) : st :=
  St (apply_eff e (s_file s)) (s_ml s) (s_pos s) (s_trim s) (s_seed s) (s_eff s ++ [e]).

Section Writer.
Context (P : plat) (C : codec).

(** The mapped bytes ([Deref for RawMmap], memory_map.rs:62-68). *)
Definition view (s : st) : bytes := take (N.to_nat (s_ml s)) (s_file s).

(** [usize::from_be_bytes(self.0[0..LEN_OFFSET].try_into().unwrap())]
    (memory_map.rs:118): panics if the map is shorter than 8 bytes or the
    8-byte slice does not fit the array of [usize] bytes. *)
Definition header (v : bytes) : option N :=
  match slice 0 len_offset v with
  | Some h => if Nat.eqb (length h) (usz P) then Some (unbe h) else None
  | None => None
  end.

(** [write_offset] (memory_map.rs:117-119). *)
Definition write_offset (v : bytes) : option N :=
  match header v with Some h => Some ((h + len_offset) mod modulus P) | None => None end.

(** [self.0[0..LEN_OFFSET].copy_from_slice(n.to_be_bytes())]
    (memory_map.rs:103,109): panics unless [usize] has 8 bytes and the map is
    long enough. *)
Definition store_len (s : st) (n : N) : st * bool :=
  if Nat.eqb (usz P) 8 && (len_offset <=? s_ml s) then (do_eff (FStore 0 (be (usz P) n)) s, true) else (s, false).

(** [append] (memory_map.rs:97-105): first the new length, then the data. *)
Definition append (s : st) (data : bytes) : st * bool :=
  match write_offset (view s) with
  | None => (s, false)
  | Some start =>
      let content_len := (start + modulus P - len_offset) mod modulus P in
      let new_content_len := (len data + content_len) mod modulus P in
      let '(s1, ok) := store_len s new_content_len in
      if ok then
        if start + len data <=? s_ml s1 then (do_eff (FStore start data) s1, true) else (s1, false)
      else (s1, false)
  end.

(** [reset] (memory_map.rs:107-110). *)
Definition reset (s : st) : st * bool := store_len s 0.

(** [Iter::next] and [into_map] (iter.rs:39-53, 62-79).  [IPanic]: a decoder
    or slice panics; [IFuel]: the step bound is exhausted, which the proofs
    show impossible for files below 4 GiB (beyond that the u32 record length
    can wrap to 0 and the real loop would not end). *)
Inductive ires := IDone (m : gmap bytes kv) (cnt : N) | IPanic | IFuel.

Definition apply_kv (acc : gmap bytes kv) (m : kv) : gmap bytes kv :=
  if is_deleting m then delete (kv_key m) acc else <[kv_key m := m]> acc.

Definition apply_opt (acc : gmap bytes kv) (o : option kv) : gmap bytes kv :=
  match o with Some m => apply_kv acc m | None => acc end.

Fixpoint iter_map (fuel : nat) (v : bytes) (start end_ pos : N) (acc : gmap bytes kv) (cnt : N) : ires :=
  if end_ <=? start then IDone acc cnt
  else match fuel with
  | O => IFuel
  | S f =>
      match slice start end_ v with
      | None => IPanic
      | Some bs =>
          match dec C bs pos with
          | RPanic => IPanic
          | RErr _ => IDone acc cnt
          | ROk (o, l) => iter_map f v (start + l) end_ ((pos + 1) mod 2 ^ 32) (apply_opt acc o) ((cnt + 1) mod 2 ^ 32)
          end
      end
  end.

(** [mm.iter(decode).into_map()] (iter.rs:18-33, 39-53; used by
    mmkv_impl.rs:41-43 and writer.rs:63-66). *)
Definition read_all (v : bytes) : ires :=
  match write_offset v with
  | None => IPanic
  | Some e => iter_map (length v) v len_offset e 0 ∅ 0
  end.

(** [expand] (writer.rs:99-102, config.rs:36-49): one more page; the new map
    covers the whole file.  set_len beyond the limit fails ([unwrap]). *)
Definition expand (s : st) : st * bool :=
  if len (s_file s) + page P <=? maxfile P then
    let s1 := do_eff (FExtend (page P)) s in
    (St (s_file s1) (len (s_file s1)) (s_pos s1) (s_trim s1) (s_seed s1) (s_eff s1), true)
  else (s, false).

Definition incr_pos (s : st) : st := with_pos s ((s_pos s + 1) mod 2 ^ 32).

(** [self.mm.append(data); self.position += 1] (writer.rs:50-51, 80-81, 94-95). *)
Definition append_incr (s : st) (data : bytes) : st * bool :=
  let '(s1, ok) := append s data in if ok then (incr_pos s1, true) else (s1, false).

(** The rewrite loop of a trim (writer.rs:75-82); [max_len] is the length of
    the map before the trim and is not updated by [expand]. *)
Fixpoint rewrite (max_len : N) (l : list kv) (s : st) : st * bool :=
  match l with
  | [] => (s, true)
  | m :: r =>
      match enc C m (s_pos s) with
      | ROk b =>
          match write_offset (view s) with
          | None => (s, false)
          | Some wo =>
              let '(s1, ok) := if max_len <? (wo + len b) mod modulus P then expand s else (s, true) in
              if ok then
                let '(s2, ok2) := append_incr s1 b in
                if ok2 then rewrite max_len r s2 else (s2, false)
              else (s1, false)
          end
      | _ => (s, false)
      end
  end.

(** The trim branch (writer.rs:54-83). *)
Definition trim (s : st) (m : kv) : st * bool :=
  match read_all (view s) with
  | IDone snapshot _ =>
      let snapshot' := apply_kv snapshot m in
      let max_len := s_ml s in
      let '(s1, ok) := reset s in
      if ok then
        let order := hord P (s_seed s1) snapshot' in
        let s2 := with_pos (with_seed s1 (s_seed s1 + 1)) 0 in
        let '(s3, ok3) := rewrite max_len order s2 in
        if ok3 then (with_trim s3 false, true) else (s3, false)
      else (s1, false)
  | _ => (s, false)
  end.

(** [IOWriter::write] (writer.rs:39-97). *)
Definition write (s : st) (m : kv) (duplicated : bool) : st * bool :=
  match enc C m (s_pos s) with
  | ROk data =>
      match write_offset (view s) with
      | None => (s, false)
      | Some wo =>
          let target_end := (len data + wo) mod modulus P in
          let s1 := if duplicated then with_trim s true else s in
          if target_end <=? s_ml s1 then append_incr s1 data
          else if s_trim s1 then trim s1 m
          else
            let '(s2, ok) := expand s1 in
            if ok then append_incr s2 data else (s2, false)
      end
  | _ => (s, false)   (* .unwrap() of an encoding error *)
  end.

(** The file part of [Config::new] (config.rs:15-34): an empty (or new) file
    gets one page. *)
Definition config_new (f : bytes) : bytes := if len f =? 0 then zeros (page P) else f.

(** [MmkvImpl::new] after [Config::new] (mmkv_impl.rs:36-53): map the whole
    file, read it, start the writer at the number of decoded records.  [seed]
    is the oracle index from which this writer enumerates. *)
Definition open_file (seed : N) (f : bytes) : option (st * gmap bytes kv) :=
  let v := take (N.to_nat (len f)) f in
  match read_all v with
  | IDone m cnt => Some (St f (len f) cnt false seed [], m)
  | _ => None
  end.

End Writer.
