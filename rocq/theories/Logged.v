(** The log calls inside the store.

    Every enabled log call hands its line to the log thread and unwraps the
    answer (src/log/logger.rs:50-61, Logging.v): it panics once the log thread
    is gone.  World.v leaves these calls out; here the same functions are
    written with every log call of src/mmkv.rs and src/core in its place.

    [bad k lv]: the [k]-th log call of the process, if its level is [lv],
    panics.  Any behaviour of the installed logger, of the log thread and of
    the level setting is such a function.  A function that logs takes and
    returns the number of log calls made so far.  The texts of the lines are
    not modelled.  A panic raised while another panic unwinds the same thread
    ends the process ([LAbort]). *)
From Verif Require Import Bytes Utf8 Proto Value Codec.
From Verif Require Logging.
From Verif Require Import Store Encrypt World.
Local Open Scope N_scope.

Notation level := Logging.level.

Section Logged.
Context (E : env) (bad : N -> level -> bool).
Notation P := (e_plat E).

(** *** The background writer *)

Section Writer.
Context (C : codec).

(** [Iter::next]/[into_map] and the decoders (iter.rs:62-79, crc.rs:37-43,
    encrypt.rs:154-160): a damaged record and a decoding error are logged.
    [None]: the log call panicked. *)
Fixpoint liter_map (k : N) (fuel : nat) (v : bytes) (start end_ pos : N) (acc : gmap bytes kv) (cnt : N) : N * option ires :=
  if end_ <=? start then (k, Some (IDone acc cnt))
  else match fuel with
  | O => (k, Some IFuel)
  | S f =>
      match slice start end_ v with
      | None => (k, Some IPanic)
      | Some bs =>
          match dec C bs pos with
          | RPanic => (k, Some IPanic)
          | RErr _ => if bad k Logging.Error then (k + 1, None) else (k + 1, Some (IDone acc cnt))
          | ROk (o, l) =>
              let k' := match o with Some _ => k | None => k + 1 end in
              if match o with Some _ => false | None => bad k Logging.Error end then (k', None)
              else liter_map k' f v (start + l) end_ ((pos + 1) mod 2 ^ 32) (apply_opt acc o) ((cnt + 1) mod 2 ^ 32)
          end
      end
  end.

(** iter.rs:18-53. *)
Definition lread_all (k : N) (v : bytes) : N * option ires :=
  match write_offset P v with
  | None => (k, Some IPanic)
  | Some e => liter_map k (length v) v len_offset e 0 ∅ 0
  end.

(** config.rs:36-49, writer.rs:99-102: a line before the file grows and one
    after, then the new map. *)
Definition lexpand (k : N) (s : st) : N * (st * bool) :=
  if bad k Logging.Info then (k + 1, (s, false))
  else if len (s_file s) + page P <=? maxfile P then
    let s1 := do_eff (FExtend (page P)) s in
    if bad (k + 1) Logging.Info then (k + 2, (s1, false))
    else (k + 2, (St (s_file s1) (len (s_file s1)) (s_pos s1) (s_trim s1) (s_seed s1) (s_eff s1), true))
  else (k + 1, (s, false)).

(** writer.rs:75-82. *)
Fixpoint lrewrite (k max_len : N) (l : list kv) (s : st) : N * (st * bool) :=
  match l with
  | [] => (k, (s, true))
  | m :: r =>
      match enc C m (s_pos s) with
      | ROk b =>
          match write_offset P (view s) with
          | None => (k, (s, false))
          | Some wo =>
              let '(k1, (s1, ok)) := if max_len <? (wo + len b) mod modulus P then lexpand k s else (k, (s, true)) in
              if ok then
                let '(s2, ok2) := append_incr P s1 b in
                if ok2 then lrewrite k1 max_len r s2 else (k1, (s2, false))
              else (k1, (s1, false))
          end
      | _ => (k, (s, false))
      end
  end.

(** writer.rs:54-89: lines at 57, 62, 72 and 84. *)
Definition ltrim (k : N) (s : st) (m : kv) : N * (st * bool) :=
  if bad k Logging.Info then (k + 1, (s, false))
  else if bad (k + 1) Logging.Info then (k + 2, (s, false))
  else
    let '(k1, r) := lread_all (k + 2) (view s) in
    match r with
    | Some (IDone snapshot _) =>
        let snapshot' := apply_kv snapshot m in
        if bad k1 Logging.Info then (k1 + 1, (s, false))
        else
          let max_len := s_ml s in
          let '(s1, ok) := reset P s in
          if ok then
            let order := hord P (s_seed s1) snapshot' in
            let s2 := with_pos (with_seed s1 (s_seed s1 + 1)) 0 in
            let '(k2, (s3, ok3)) := lrewrite (k1 + 1) max_len order s2 in
            if ok3 then (k2 + 1, (with_trim s3 false, negb (bad k2 Logging.Info))) else (k2, (s3, false))
          else (k1 + 1, (s1, false))
    | _ => (k1, (s, false))
    end.

(** writer.rs:39-97. *)
Definition lwrite (k : N) (s : st) (m : kv) (duplicated : bool) : N * (st * bool) :=
  match enc C m (s_pos s) with
  | ROk data =>
      match write_offset P (view s) with
      | None => (k, (s, false))
      | Some wo =>
          let target_end := (len data + wo) mod modulus P in
          let s1 := if duplicated then with_trim s true else s in
          if target_end <=? s_ml s1 then (k, append_incr P s1 data)
          else if s_trim s1 then ltrim k s1 m
          else
            let '(k1, (s2, ok)) := lexpand k s1 in
            if ok then (k1, append_incr P s2 data) else (k1, (s2, false))
      end
  | _ => (k, (s, false))
  end.

(** mmkv_impl.rs:36-53. *)
Definition lopen_file (k seed : N) (f : bytes) : N * option (st * gmap bytes kv) :=
  let v := take (N.to_nat (len f)) f in
  let '(k1, r) := lread_all k v in
  (k1, match r with Some (IDone m cnt) => Some (St f (len f) cnt false seed [], m) | _ => None end).

End Writer.

(** io_looper.rs:123-125 with the jobs of mmkv_impl.rs; the removal job ends
    with a line (mmkv_impl.rs:111).  A panicking log call ends the background
    thread like any other panic. *)
Definition lrun_job (k : N) (w : world) (i : N) : N * world :=
  match w_insts w !! i with
  | Some x =>
      match i_io x, i_queue x with
      | IoRun, JWrite m dup :: q =>
          let '(k1, (s, ok)) := lwrite (i_codec E x) k (i_st w x) m dup in
          (k1, set_seed (set_inode (set_inst w i (i_after x q (if ok then IoRun else IoDead) s)) (i_ino x) (s_file s)) (s_seed s))
      | IoRun, JRemove :: q =>
          let d := dir_of w (i_dir x) in
          let w1 := set_dir w (i_dir x) (Dir None (if is_encrypted (e_feat E) then None else d_meta d)) in
          let x1 := i_with_queue x q in
          (k + 1, set_inst w1 i (if bad k Logging.Info then i_after x1 q IoDead (i_st w x) else x1))
      | _, _ => (k, w)
      end
  | None => (k, w)
  end.

Definition ldrain (k : N) (w : world) (i : N) : N * world :=
  match w_insts w !! i with
  | Some x => Nat.iter (length (i_queue x)) (fun kw => lrun_job kw.1 kw.2 i) (k, w)
  | None => (k, w)
  end.

(** *** Opening *)

(** The end of an attempt to open. *)
Inductive opened := OGood (x : inst) | OPanic | OAbort.

(** encrypt.rs:80-103: a nonce file of the wrong length is reported twice and
    then replaced; [None]: a panicking log call, nothing changed. *)
Definition lopen_nonce (k : N) (w : world) (d : bytes) : N * option (world * bytes) :=
  if is_encrypted (e_feat E) then
    match d_meta (dir_of w d) with
    | Some n =>
        if Nat.eqb (length n) nonce_len then (k, Some (open_nonce E w d))
        else if bad k Logging.Error then (k + 1, None)
        else if bad (k + 1) Logging.Warn then (k + 2, None)
        else (k + 2, Some (open_nonce E w d))
    | None => (k, Some (open_nonce E w d))
    end
  else (k, Some (open_nonce E w d)).

(** mmkv.rs:98-104, 212-218; mmkv_impl.rs:28-63.  The last line of
    [MmkvImpl::new] comes when the instance exists: if it panics, unwinding
    drops the instance, and [Drop for IOLooper] logs twice
    (io_looper.rs:100,102). *)
Definition lopen_impl (k : N) (w : world) (path key : bytes) : N * (world * opened) :=
  if e_dir_ok E path then
    let d := e_canon E path in
    let '(w1, ino) := open_config E w d in
    match feature_key (e_feat E) key with
    | None => (k, (w1, OPanic))
    | Some ky =>
        let '(k2, on) := lopen_nonce k w1 d in
        match on with
        | None => (k2, (w1, OPanic))
        | Some (w2, nonce) =>
            let '(k3, of) := lopen_file (feature_codec (e_feat E) ky nonce) k2 (w_seed w2) (inode w2 ino) in
            match of with
            | Some (s, m) =>
                if bad k3 Logging.Info then
                  if bad (k3 + 1) Logging.Verbose || bad (k3 + 2) Logging.Debug then (k3 + 3, (w2, OAbort)) else (k3 + 3, (w2, OPanic))
                else (k3 + 1, (w2, OGood (Inst m true false [] IoRun true true d ino ky nonce (s_ml s) (s_pos s) (s_trim s))))
            | None => (k3, (w2, OPanic))
            end
        end
    end
  else (k, (w, OPanic)).

(** *** Calls *)

(** A call answers or ends the process, leaving the files. *)
Inductive lout := LAns (k : N) (w : world) (r : result) | LAbort (w : world).

(** What an end of the process leaves (as [EKill]). *)
Definition gone (w : world) : world :=
  World (w_dirs w) (w_inodes w) (w_next_ino w) ∅ (w_next_inst w) ∅ ∅ false (w_rng w) (w_seed w).

(** mmkv.rs:70-112; the line at 73 is written while the read lock is held,
    those of the opening while the write lock is held. *)
Definition ldo_new (k : N) (w : world) (h : N) (path key : bytes) : lout :=
  if w_poison w then LAns k w RPanic
  else
    match lookup_reg w path with
    | Some i =>
        if bad k Logging.Debug then LAns (k + 1) w RPanic
        else LAns (k + 1) (set_handles w (<[h := Handle path key i false]> (w_handles w))) (ROk None)
    | None =>
        match lopen_impl k w path key with
        | (k1, (w1, OGood x)) =>
            let i := w_next_inst w1 in
            LAns k1 (World (w_dirs w1) (w_inodes w1) (w_next_ino w1) (<[i := x]> (w_insts w1)) (i + 1)
                   (<[h := Handle path key i false]> (w_handles w1)) (<[path := i]> (w_reg w1))
                   (w_poison w1) (w_rng w1) (w_seed w1)) (ROk None)
        | (k1, (w1, OPanic)) => LAns k1 (set_poison w1) RPanic
        | (k1, (w1, OAbort)) => LAbort (gone w1)
        end
    end.

(** mmkv_impl.rs:98-114, io_looper.rs:41-58; lines at mmkv_impl.rs:100 and
    io_looper.rs:51.  The last component: a log call panicked (with the
    instance's lock held).  A thread left behind unjoined goes on working. *)
Definition limpl_clear (k : N) (w : world) (i : N) (x : inst) : N * (world * result * bool) :=
  if negb (i_valid x) then (k + 1, (w, ROk None, bad k Logging.Warn))
  else
    let '(x1, r) := post (i_invalid x) JRemove in
    let w1 := set_inst w i x1 in
    match r with
    | ROk _ =>
        if bad k Logging.Debug then (k + 1, (set_inst w i (i_quit x1), RPanic, true))
        else
          let '(k2, w2) := ldrain (k + 1) w1 i in
          match w_insts w2 !! i with
          | Some x2 => (k2, (set_inst w2 i (i_quit x2), match i_io x2 with IoRun => ROk None | IoDead => RErr IOError end, false))
          | None => (k2, (w2, RPanic, false))
          end
    | _ => (k, (w1, r, false))
    end.

(** Poisoning the lock of an instance. *)
Definition poisoned_at (w : world) (i : N) : world :=
  match w_insts w !! i with Some z => set_inst w i (i_with_poison z) | None => w end.

(** mmkv.rs:206-220; the old instance is dropped at the assignment, with the
    lines of io_looper.rs:100 (if it had to be joined) and 102. *)
Definition ldo_clear (k : N) (w : world) (hd : handle) : lout :=
  match w_insts w !! h_inst hd with
  | None => LAns k w RPanic
  | Some x =>
      if i_poison x then LAns k w (RErr LockError)
      else
        let '(k1, (w1, r, failed)) := limpl_clear k w (h_inst hd) x in
        if failed then LAns k1 (poisoned_at w1 (h_inst hd)) RPanic
        else
          match r with
          | ROk _ =>
              match lopen_impl k1 w1 (h_path hd) (h_key hd) with
              | (k2, (w2, OGood y)) =>
                  let old := default x (w_insts w1 !! h_inst hd) in
                  if i_join old then
                    match i_io old with
                    | IoDead => LAns k2 (set_inst w2 (h_inst hd) (i_with_poison y)) RPanic
                    | IoRun =>
                        if bad k2 Logging.Verbose || bad (k2 + 1) Logging.Debug
                        then LAns (k2 + 2) (set_inst w2 (h_inst hd) (i_with_poison y)) RPanic
                        else LAns (k2 + 2) (set_inst w2 (h_inst hd) y) (ROk None)
                    end
                  else if bad k2 Logging.Debug then LAns (k2 + 1) (set_inst w2 (h_inst hd) (i_with_poison y)) RPanic
                  else LAns (k2 + 1) (set_inst w2 (h_inst hd) y) (ROk None)
              | (k2, (w2, OPanic)) => LAns k2 (poisoned_at w2 (h_inst hd)) RPanic
              | (k2, (w2, OAbort)) => LAbort (gone w2)
              end
          | _ => LAns k1 w1 r
          end
  end.

(** mmkv.rs:43-55: the line at 49 is written under the registry's lock. *)
Definition ldrop_reg (k : N) (w : world) (h : N) (hd : handle) : N * (world * result) :=
  if w_poison w then (k, do_drop_reg w h hd)
  else
    let w1 := fst (do_drop_reg w h hd) in
    if bad k Logging.Debug then (k + 1, (set_poison w1, RPanic)) else (k + 1, (w1, ROk None)).

(** A thread that was left behind (its handle was dropped unjoined) and has
    not finished. *)
Definition orphan (x : inst) : bool :=
  negb (i_join x) && match i_io x, i_queue x with IoRun, _ :: _ => true | _, _ => false end.

(** Dropping the [Arc] (io_looper.rs:93-104).  [unwinding]: [Drop for MMKV]
    has panicked.  Nobody waits for a thread left behind: it stays in the
    world, with no handle, until it has finished. *)
Definition ldrop_arc (k : N) (w : world) (h : N) (hd : handle) (unwinding : bool) : lout :=
  let i := h_inst hd in
  let panic k w := if unwinding then LAbort (gone w) else LAns k w RPanic in
  if Nat.eqb (strong w i) 1 then
    if match w_insts w !! i with Some x => orphan x | None => false end then
      let w2 := set_handles w (delete h (w_handles w)) in
      if bad k Logging.Debug then panic (k + 1) w2 else LAns (k + 1) w2 (ROk None)
    else
      let '(k1, w1) := ldrain k w i in
      let w2 := set_handles (set_insts w1 (delete i (w_insts w1))) (delete h (w_handles w1)) in
      match w_insts w1 !! i with
      | Some x =>
          if i_join x then
            match i_io x with
            | IoDead => panic k1 w2
            | IoRun => if bad k1 Logging.Verbose || bad (k1 + 1) Logging.Debug then panic (k1 + 2) w2 else LAns (k1 + 2) w2 (ROk None)
            end
          else if bad k1 Logging.Debug then panic (k1 + 1) w2 else LAns (k1 + 1) w2 (ROk None)
      | None => LAns k1 w2 (ROk None)
      end
  else LAns k (set_handles w (delete h (w_handles w))) (ROk None).

(** One event.  [put], [get] and [delete] contain no log call (mmkv.rs:181-201,
    mmkv_impl.rs:65-96).  Split drops are left out. *)
Definition lstep (k : N) (w : world) (e : event) : option lout :=
  match e with
  | ENew h path key =>
      match w_handles w !! h with
      | None => Some (ldo_new k w h path key)
      | Some _ => None
      end
  | EClear h =>
      match w_handles w !! h with
      | Some hd => if h_unreg hd then None else Some (ldo_clear k w hd)
      | None => None
      end
  | EDrop h =>
      match w_handles w !! h with
      | Some hd =>
          if h_unreg hd then None
          else
            let '(k1, (w1, r1)) := ldrop_reg k w h hd in
            let unwinding := match r1 with RPanic => true | _ => false end in
            Some (match ldrop_arc k1 w1 h hd unwinding with
                  | LAns k2 w2 r2 => LAns k2 w2 (if unwinding then RPanic else r2)
                  | LAbort w2 => LAbort w2
                  end)
      | None => None
      end
  | EDropReg _ | EDropArc _ => None
  | EIo i => let '(k1, w1) := lrun_job k w i in Some (LAns k1 w1 (ROk None))
  | _ => match step E w e with Some (w1, r) => Some (LAns k w1 r) | None => None end
  end.

(** A run: it ends early if the process does. *)
Inductive lend := Ran (k : N) (w : world) (rs : list result) | Aborted (w : world) (rs : list result).

Fixpoint lrun (k : N) (w : world) (es : list event) : option lend :=
  match es with
  | [] => Some (Ran k w [])
  | e :: r =>
      match lstep k w e with
      | Some (LAns k1 w1 x) =>
          match lrun k1 w1 r with
          | Some (Ran k2 w2 xs) => Some (Ran k2 w2 (x :: xs))
          | Some (Aborted w2 xs) => Some (Aborted w2 (x :: xs))
          | None => None
          end
      | Some (LAbort w1) => Some (Aborted w1 [])
      | None => None
      end
  end.

End Logged.

(** ** The log thread

    The log thread dies at some moment and does not come back; the level is
    fixed: a call of level [lv] fails iff it is wanted and comes after. *)
Definition dead_from (n : N) (threshold : level) (k : N) (lv : level) : bool := (n <=? k) && Logging.wanted threshold lv.
