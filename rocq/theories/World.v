(** The whole library: directories, handles, the instance registry, instances
    with their in-memory map and job queue, and the background writers.

    Models src/mmkv.rs:33-220, src/core/mmkv_impl.rs:27-115, the file part of
    src/core/config.rs, and (at the level of whole jobs) src/core/io_looper.rs;
    Looper.v relates this job-level view to the real queue/channel protocol
    and Conc.v the atomic calls used here to lock-level executions.

    Every API call that runs under a lock is one event, every background job
    is one event, and dropping a handle is split at the point where the
    registry lock is released (mmkv.rs:43-55 runs before the fields are
    dropped).  A panic that unwinds while a lock is held poisons the lock. *)
From Verif Require Import Bytes Utf8 Proto Value Codec Store Encrypt.
Local Open Scope N_scope.

(** The environment.  [e_dir_ok p]: [p] is an existing writable directory
    (mmkv.rs:114-124).  [e_canon p]: the directory the text [p] denotes.
    [e_rng i]: the [i]-th result of the random generator. *)
Record env := Env {
  e_plat : plat; e_feat : feature;
  e_dir_ok : bytes -> bool; e_canon : bytes -> bytes; e_rng : N -> bytes
}.

(** A job posted to the background thread: a write (mmkv_impl.rs:71-72,94-95)
    or the removal of the files (mmkv_impl.rs:107-112). *)
Inductive job := JWrite (m : kv) (dup : bool) | JRemove.

(** The background thread: running, or ended by a panic. *)
Inductive iostat := IoRun | IoDead.

(** [MmkvImpl] (mmkv_impl.rs:19-25) behind its [RwLock], with its [IOLooper]
    and [IOWriter].  [i_sender]: the channel's sender has not been taken;
    [i_join]: the join handle has not been taken; [i_dir], [i_ino]: the
    directory of [config.path] and the open file. *)
Record inst := Inst {
  i_map : gmap bytes kv; i_valid : bool; i_poison : bool;
  i_queue : list job; i_io : iostat; i_sender : bool; i_join : bool;
  i_dir : bytes; i_ino : N; i_key : bytes; i_nonce : bytes;
  i_ml : N; i_pos : N; i_trim : bool
}.

(** A directory: the inode its data file name points to and the content of
    its meta file. *)
Record dirst := Dir { d_data : option N; d_meta : option bytes }.

(** [MMKV] (mmkv.rs:36-41); [h_unreg]: [Drop::drop] has run but the fields
    are not dropped yet. *)
Record handle := Handle { h_path : bytes; h_key : bytes; h_inst : N; h_unreg : bool }.

Record world := World {
  w_dirs : gmap bytes dirst;
  w_inodes : gmap N bytes; w_next_ino : N;
  w_insts : gmap N inst; w_next_inst : N;
  w_handles : gmap N handle;
  w_reg : gmap bytes N;         (* INSTANCE_MAP: weak references *)
  w_poison : bool;              (* of the INSTANCE_MAP lock *)
  w_rng : N; w_seed : N
}.

(** A world without any store. *)
Definition world0 : world := World ∅ ∅ 0 ∅ 0 ∅ ∅ false 0 0.

(** What a call returns: [ROk None] is [Ok(())]. *)
Notation result := (res err (option value)).

Definition set_insts (w : world) (m : gmap N inst) : world :=
  World (w_dirs w) (w_inodes w) (w_next_ino w) m (w_next_inst w) (w_handles w) (w_reg w) (w_poison w) (w_rng w) (w_seed w).
Definition set_handles (w : world) (m : gmap N handle) : world :=
  World (w_dirs w) (w_inodes w) (w_next_ino w) (w_insts w) (w_next_inst w) m (w_reg w) (w_poison w) (w_rng w) (w_seed w).
Definition set_reg (w : world) (m : gmap bytes N) : world :=
  World (w_dirs w) (w_inodes w) (w_next_ino w) (w_insts w) (w_next_inst w) (w_handles w) m (w_poison w) (w_rng w) (w_seed w).
Definition set_poison (w : world) : world :=
  World (w_dirs w) (w_inodes w) (w_next_ino w) (w_insts w) (w_next_inst w) (w_handles w) (w_reg w) true (w_rng w) (w_seed w).
Definition set_dir (w : world) (d : bytes) (x : dirst) : world :=
  World (<[d := x]> (w_dirs w)) (w_inodes w) (w_next_ino w) (w_insts w) (w_next_inst w) (w_handles w) (w_reg w) (w_poison w) (w_rng w) (w_seed w).
Definition set_inode (w : world) (i : N) (f : bytes) : world :=
  World (w_dirs w) (<[i := f]> (w_inodes w)) (w_next_ino w) (w_insts w) (w_next_inst w) (w_handles w) (w_reg w) (w_poison w) (w_rng w) (w_seed w).
Definition set_seed (w : world) (x : N) : world :=
  World (w_dirs w) (w_inodes w) (w_next_ino w) (w_insts w) (w_next_inst w) (w_handles w) (w_reg w) (w_poison w) (w_rng w) x.
Definition set_inst (w : world) (i : N) (x : inst) : world := set_insts w (<[i := x]> (w_insts w)).

Definition i_with_queue (x : inst) (q : list job) : inst :=
  Inst (i_map x) (i_valid x) (i_poison x) q (i_io x) (i_sender x) (i_join x) (i_dir x) (i_ino x) (i_key x) (i_nonce x) (i_ml x) (i_pos x) (i_trim x).
Definition i_with_map (x : inst) (m : gmap bytes kv) : inst :=
  Inst m (i_valid x) (i_poison x) (i_queue x) (i_io x) (i_sender x) (i_join x) (i_dir x) (i_ino x) (i_key x) (i_nonce x) (i_ml x) (i_pos x) (i_trim x).
Definition i_with_poison (x : inst) : inst :=
  Inst (i_map x) (i_valid x) true (i_queue x) (i_io x) (i_sender x) (i_join x) (i_dir x) (i_ino x) (i_key x) (i_nonce x) (i_ml x) (i_pos x) (i_trim x).
Definition i_invalid (x : inst) : inst :=
  Inst ∅ false (i_poison x) (i_queue x) (i_io x) (i_sender x) (i_join x) (i_dir x) (i_ino x) (i_key x) (i_nonce x) (i_ml x) (i_pos x) (i_trim x).
Definition i_quit (x : inst) : inst :=
  Inst (i_map x) (i_valid x) (i_poison x) (i_queue x) (i_io x) false false (i_dir x) (i_ino x) (i_key x) (i_nonce x) (i_ml x) (i_pos x) (i_trim x).
Definition i_after (x : inst) (q : list job) (io : iostat) (s : st) : inst :=
  Inst (i_map x) (i_valid x) (i_poison x) q io (i_sender x) (i_join x) (i_dir x) (i_ino x) (i_key x) (i_nonce x) (s_ml s) (s_pos s) (s_trim s).

Section World.
Context (E : env).

Definition dir_of (w : world) (d : bytes) : dirst := default (Dir None None) (w_dirs w !! d).
Definition inode (w : world) (i : N) : bytes := default [] (w_inodes w !! i).

(** The bytes of the data file of directory [d], if it exists. *)
Definition file_at (w : world) (d : bytes) : option bytes := option_map (inode w) (d_data (dir_of w d)).

(** The codec of an instance. *)
Definition i_codec (x : inst) : codec := feature_codec (e_feat E) (i_key x) (i_nonce x).

(** The writer of an instance, seeing the current file. *)
Definition i_st (w : world) (x : inst) : st := St (inode w (i_ino x)) (i_ml x) (i_pos x) (i_trim x) (w_seed w) [].

(** The background thread runs the first queued job (io_looper.rs:123-125).
    A panic in the job ends the thread. *)
Definition run_job (w : world) (i : N) : world :=
  match w_insts w !! i with
  | Some x =>
      match i_io x, i_queue x with
      | IoRun, JWrite m dup :: q =>
          let '(s, ok) := write (e_plat E) (i_codec x) (i_st w x) m dup in
          set_seed (set_inode (set_inst w i (i_after x q (if ok then IoRun else IoDead) s)) (i_ino x) (s_file s)) (s_seed s)
      | IoRun, JRemove :: q =>
          (* config.rs:55-57 and mmkv_impl.rs:109-110: unlink; errors ignored *)
          let d := dir_of w (i_dir x) in
          set_inst (set_dir w (i_dir x) (Dir None (if is_encrypted (e_feat E) then None else d_meta d)))
                   i (i_with_queue x q)
      | _, _ => w
      end
  | None => w
  end.

(** The thread works until its queue is empty or it dies (what [join] waits for). *)
Definition drain (w : world) (i : N) : world :=
  match w_insts w !! i with
  | Some x => Nat.iter (length (i_queue x)) (fun w => run_job w i) w
  | None => w
  end.

(** [Config::new] (config.rs:15-34): create the data file if there is none,
    give an empty one a page.  Result: the inode. *)
Definition open_config (w : world) (d : bytes) : world * N :=
  match d_data (dir_of w d) with
  | Some i => (set_inode w i (config_new (e_plat E) (inode w i)), i)
  | None =>
      let i := w_next_ino w in
      let w1 := World (<[d := Dir (Some i) (d_meta (dir_of w d))]> (w_dirs w)) (<[i := config_new (e_plat E) []]> (w_inodes w))
                      (i + 1) (w_insts w) (w_next_inst w) (w_handles w) (w_reg w) (w_poison w) (w_rng w) (w_seed w) in
      (w1, i)
  end.

(** [Encryptor::init] (encrypt.rs:34-43): the nonce, written to the meta file
    if it had to be made.  Nothing happens in the plain build. *)
Definition open_nonce (w : world) (d : bytes) : world * bytes :=
  if is_encrypted (e_feat E) then
    let '(n, meta') := init_nonce (d_meta (dir_of w d)) (e_rng E (w_rng w)) in
    (World (<[d := Dir (d_data (dir_of w d)) (Some meta')]> (w_dirs w)) (w_inodes w) (w_next_ino w)
           (w_insts w) (w_next_inst w) (w_handles w) (w_reg w) (w_poison w) (w_rng w + 1) (w_seed w), n)
  else (w, []).

(** [resolve_file_path], [Config::new] and [MmkvImpl::new] (mmkv.rs:98-104,
    212-218; mmkv_impl.rs:28-63): [None] is a panic; the world returned with
    it is what the attempt left behind. *)
Definition open_impl (w : world) (path key : bytes) : world * option inst :=
  if e_dir_ok E path then
    let d := e_canon E path in
    let '(w1, ino) := open_config w d in
    match feature_key (e_feat E) key with
    | None => (w1, None)
    | Some k =>
        let '(w2, nonce) := open_nonce w1 d in
        match open_file (e_plat E) (feature_codec (e_feat E) k nonce) (w_seed w2) (inode w2 ino) with
        | Some (s, m) =>
            (w2, Some (Inst m true false [] IoRun true true d ino k nonce (s_ml s) (s_pos s) (s_trim s)))
        | None => (w2, None)
        end
    end
  else (w, None).

(** Strong count of an instance: the handles that still own their [Arc]. *)
Definition strong (w : world) (i : N) : nat :=
  length (filter (fun kh : N * handle => h_inst kh.2 = i) (map_to_list (w_handles w))).

(** [instance_map.get(dir).and_then(|mmkv| mmkv.upgrade())] (mmkv.rs:72,85). *)
Definition lookup_reg (w : world) (path : bytes) : option N :=
  match w_reg w !! path with
  | Some i => if bool_decide (is_Some (w_insts w !! i)) then Some i else None
  | None => None
  end.

(** [MMKV::new] (mmkv.rs:70-112).  A panic while opening happens with the
    registry's write lock held. *)
Definition do_new (w : world) (h : N) (path key : bytes) : world * result :=
  if w_poison w then (w, RPanic)
  else
    match lookup_reg w path with
    | Some i => (set_handles w (<[h := Handle path key i false]> (w_handles w)), ROk None)
    | None =>
        match open_impl w path key with
        | (w1, Some x) =>
            let i := w_next_inst w1 in
            (World (w_dirs w1) (w_inodes w1) (w_next_ino w1) (<[i := x]> (w_insts w1)) (i + 1)
                   (<[h := Handle path key i false]> (w_handles w1)) (<[path := i]> (w_reg w1))
                   (w_poison w1) (w_rng w1) (w_seed w1), ROk None)
        | (w1, None) => (set_poison w1, RPanic)
        end
    end.

(** [IOLooper::post] (io_looper.rs:60-78): the job is queued first; the
    signal fails when the receiver is gone. *)
Definition post (x : inst) (j : job) : inst * res err (option value) :=
  let x1 := i_with_queue x (i_queue x ++ [j]) in
  if i_sender x then (x1, match i_io x with IoRun => ROk None | IoDead => RErr IOError end)
  else (x1, RErr IOError).

(** [MMKV::put] (mmkv.rs:181-186, mmkv_impl.rs:65-73).  The buffer is built
    while the lock is held, so a reserved type token poisons it. *)
Definition inst_put (x : inst) (key : bytes) (v : value) : inst * result :=
  if i_poison x then (x, RErr LockError)
  else match buffer_new key v with
  | ROk m =>
      if i_valid x then
        let dup := bool_decide (is_Some (i_map x !! key)) in
        post (i_with_map x (<[key := m]> (i_map x))) (JWrite m dup)
      else (x, RErr InstanceClosed)
  | RErr e => (x, RErr e)
  | RPanic => (i_with_poison x, RPanic)
  end.

(** A put whose user-supplied serializer panics (mmkv.rs:183). *)
Definition inst_put_panic (x : inst) : inst * result :=
  if i_poison x then (x, RErr LockError) else (i_with_poison x, RPanic).

(** [MMKV::get] (mmkv.rs:189-194, mmkv_impl.rs:75-83).  A panic while only
    the read lock is held does not poison it. *)
Definition inst_get (x : inst) (key : bytes) (t : ty) : result :=
  if i_poison x then RErr LockError
  else if i_valid x then
    match i_map x !! key with
    | Some m => res_map Some (buffer_parse m t)
    | None => RErr KeyNotFound
    end
  else RErr InstanceClosed.

(** [MMKV::delete] (mmkv.rs:196-201, mmkv_impl.rs:85-96). *)
Definition inst_delete (x : inst) (key : bytes) : inst * result :=
  if i_poison x then (x, RErr LockError)
  else if i_valid x then
    match i_map x !! key with
    | Some _ => post (i_with_map x (delete key (i_map x))) (JWrite (deleted_buffer key) true)
    | None => (x, ROk None)
    end
  else (x, RErr InstanceClosed).

(** [MmkvImpl::clear_data] (mmkv_impl.rs:98-114) with [IOLooper::quit]
    (io_looper.rs:41-58). *)
Definition impl_clear (w : world) (i : N) (x : inst) : world * result :=
  if negb (i_valid x) then (w, ROk None)
  else
    let '(x1, r) := post (i_invalid x) JRemove in
    let w1 := set_inst w i x1 in
    match r with
    | ROk _ =>
        (* Quit is sent, the thread finishes the queue, join *)
        let w2 := drain w1 i in
        match w_insts w2 !! i with
        | Some x2 => (set_inst w2 i (i_quit x2), match i_io x2 with IoRun => ROk None | IoDead => RErr IOError end)
        | None => (w2, RPanic)
        end
    | _ => (w1, r)
    end.

(** [MMKV::clear_data] (mmkv.rs:206-220) on handle [hd].  Replacing the old
    [MmkvImpl] drops it; if its thread has died unjoined the drop panics
    (io_looper.rs:98-99), after the new value is in place. *)
Definition do_clear (w : world) (hd : handle) : world * result :=
  match w_insts w !! h_inst hd with
  | None => (w, RPanic)
  | Some x =>
      if i_poison x then (w, RErr LockError)
      else
        let '(w1, r) := impl_clear w (h_inst hd) x in
        match r with
        | ROk _ =>
            match open_impl w1 (h_path hd) (h_key hd) with
            | (w2, Some y) =>
                let old := default x (w_insts w1 !! h_inst hd) in
                if i_join old && match i_io old with IoDead => true | IoRun => false end
                then (set_inst w2 (h_inst hd) (i_with_poison y), RPanic)
                else (set_inst w2 (h_inst hd) y, ROk None)
            | (w2, None) =>
                (* panic with the write lock held *)
                (match w_insts w2 !! h_inst hd with
                 | Some z => set_inst w2 (h_inst hd) (i_with_poison z)
                 | None => w2
                 end, RPanic)
            end
        | _ => (w1, r)
        end
  end.

(** [Drop for MMKV] (mmkv.rs:43-55): unregister when this is the last
    strong reference. *)
Definition do_drop_reg (w : world) (h : N) (hd : handle) : world * result :=
  if w_poison w then
    (* unwrap panics; the fields are still dropped afterwards *)
    (set_handles w (<[h := Handle (h_path hd) (h_key hd) (h_inst hd) true]> (w_handles w)), RPanic)
  else
    let w1 := if Nat.eqb (strong w (h_inst hd)) 1 then set_reg w (delete (h_path hd) (w_reg w)) else w in
    (set_handles w1 (<[h := Handle (h_path hd) (h_key hd) (h_inst hd) true]> (w_handles w1)), ROk None).

(** Dropping the [Arc]: the last one drops the instance; [Drop for IOLooper]
    (io_looper.rs:93-104) closes the channel, lets the thread finish its
    queue and joins it (unwrap: a dead thread panics). *)
Definition do_drop_arc (w : world) (h : N) (hd : handle) : world * result :=
  let i := h_inst hd in
  if Nat.eqb (strong w i) 1 then
    let w1 := drain w i in
    let r := match w_insts w1 !! i with
             | Some x => if i_join x then match i_io x with IoRun => ROk None | IoDead => RPanic end else ROk None
             | None => ROk None
             end in
    (set_handles (set_insts w1 (delete i (w_insts w1))) (delete h (w_handles w1)), r)
  else (set_handles w (delete h (w_handles w)), ROk None).

(** ** Events *)

Inductive event :=
| ENew (h : N) (path key : bytes)
| EPut (h : N) (key : bytes) (v : value)
| EPutPanic (h : N) (key : bytes)              (* the user's to_bytes panics *)
| EGet (h : N) (key : bytes) (t : ty)
| EGetPanic (h : N) (key : bytes) (t : ty)     (* the user's from_bytes panics *)
| EDelete (h : N) (key : bytes)
| EClear (h : N)
| EDrop (h : N)                                (* a drop nothing else interleaves with *)
| EDropReg (h : N) | EDropArc (h : N)          (* a drop in two steps *)
| EIo (i : N)                                  (* one background job *)
| EKill.                                       (* the process is killed *)

(** A call through handle [h]: only live handles can be used. *)
Definition with_handle (w : world) (h : N) (f : handle -> world * result) : option (world * result) :=
  match w_handles w !! h with
  | Some hd => if h_unreg hd then None else Some (f hd)
  | None => None
  end.

Definition on_inst (w : world) (i : N) (f : inst -> inst * result) : world * result :=
  match w_insts w !! i with
  | Some x => let '(x', r) := f x in (set_inst w i x', r)
  | None => (w, RPanic)
  end.

(** One event; [None]: the event cannot happen in this world (e.g. a handle
    that does not exist, or a handle name in use). *)
Definition step (w : world) (e : event) : option (world * result) :=
  match e with
  | ENew h path key =>
      match w_handles w !! h with
      | None => Some (do_new w h path key)
      | Some _ => None
      end
  | EPut h key v => with_handle w h (fun hd => on_inst w (h_inst hd) (fun x => inst_put x key v))
  | EPutPanic h key => with_handle w h (fun hd => on_inst w (h_inst hd) inst_put_panic)
  | EGet h key t => with_handle w h (fun hd => on_inst w (h_inst hd) (fun x => (x, inst_get x key t)))
  | EGetPanic h key t =>
      with_handle w h (fun hd => on_inst w (h_inst hd) (fun x =>
        (x, match inst_get x key t with ROk _ => RPanic | r => r end)))
  | EDelete h key => with_handle w h (fun hd => on_inst w (h_inst hd) (fun x => inst_delete x key))
  | EClear h => with_handle w h (do_clear w)
  | EDrop h =>
      with_handle w h (fun hd =>
        let '(w1, r1) := do_drop_reg w h hd in
        let '(w2, r2) := do_drop_arc w1 h hd in
        (w2, match r1 with RPanic => RPanic | _ => r2 end))
  | EDropReg h => with_handle w h (do_drop_reg w h)
  | EDropArc h =>
      match w_handles w !! h with
      | Some hd => if h_unreg hd then Some (do_drop_arc w h hd) else None
      | None => None
      end
  | EIo i => Some (run_job w i, ROk None)
  | EKill =>
      (* the mapped files keep what was stored through the maps *)
      Some (World (w_dirs w) (w_inodes w) (w_next_ino w) ∅ (w_next_inst w) ∅ ∅ false (w_rng w) (w_seed w), ROk None)
  end.

(** A run: the final world and the results in order. *)
Fixpoint run (w : world) (es : list event) : option (world * list result) :=
  match es with
  | [] => Some (w, [])
  | e :: r =>
      match step w e with
      | Some (w1, x) => match run w1 r with Some (w2, xs) => Some (w2, x :: xs) | None => None end
      | None => None
      end
  end.

End World.
