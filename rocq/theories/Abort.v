(** When a panic ends the whole process.

    World.v answers [RPanic] when a call panics and lets a background thread
    die when a job panics; that is what a caller of a Rust program built with
    unwinding sees, as long as nothing panics a second time while the stack is
    unwound.  Two things can make it worse:

    - The repository's own release profile says [panic = 'abort']
      (.cargo/config.toml:5-9): the libraries for Android, iOS and macOS
      (build_android.sh, build_apple.sh) end the process at the first panic,
      wherever it happens.  (Cargo reads that file only for builds made in the
      repository; a program that uses the crate has its own profile.)
    - With unwinding, a panic while a [MemoryMap] is alive drops it
      (memory_map.rs:85-89): the drop reads the length again and calls msync
      for that many bytes, both with unwrap.  A panic in a destructor during
      unwinding aborts.  The map is alive while the file is read
      (mmkv_impl.rs:36-43) and as long as the writer lives (writer.rs).

    msync fails with ENOMEM if the range is not mapped; whether anything is
    mapped behind the map depends on the address space, so this is a
    parameter.  World.v takes every msync to succeed when a thread ends
    regularly; P_Abort shows that this is so. *)
From Verif Require Import Bytes Utf8 Proto Value Codec Store Encrypt World Main.
Local Open Scope N_scope.

(** How the program was built, and whether msync of the first [n] bytes of a
    map of [ml] bytes succeeds. *)
Record profile := Profile { p_abort : bool; p_msync : N -> N -> bool }.

(** msync succeeds on mapped memory. *)
Definition profile_ok (pr : profile) : Prop := forall ml n, n <= ml -> p_msync pr ml n = true.

Section Abort.
Context (pr : profile) (E : env).

(** [Drop for MemoryMap] (memory_map.rs:43-51, 85-89, 117-119) panics. *)
Definition map_drop_panics (ml : N) (f : bytes) : bool :=
  match write_offset (e_plat E) (take (N.to_nat ml) f) with
  | Some n => negb (p_msync pr ml n)
  | None => true
  end.

(** A panic with the map of [f] alive ends the process. *)
Definition fatal (ml : N) (f : bytes) : bool := p_abort pr || map_drop_panics ml f.

(** The first job of store [i] ends the process (writer.rs:39-102;
    io_looper.rs:107-136: the panicking thread drops the writer). *)
Definition job_ends (w : world) (i : N) : bool :=
  match w_insts w !! i with
  | Some x =>
      match i_io x, i_queue x with
      | IoRun, JWrite m dup :: _ =>
          let '(s, ok) := write (e_plat E) (i_codec E x) (i_st w x) m dup in
          negb ok && fatal (s_ml s) (s_file s)
      | _, _ => false
      end
  | None => false
  end.

(** One of the next [n] jobs does. *)
Fixpoint jobs_end (n : nat) (w : world) (i : N) : bool :=
  match n with
  | O => false
  | S n => job_ends w i || jobs_end n (run_job E w i) i
  end.

Definition queue_ends (w : world) (i : N) : bool :=
  match w_insts w !! i with Some x => jobs_end (length (i_queue x)) w i | None => false end.

(** Opening ends the process (mmkv.rs:98-104, mmkv_impl.rs:28-63): before the
    map exists only if panics abort. *)
Definition open_ends (w : world) (path key : bytes) : bool :=
  if e_dir_ok E path then
    let d := e_canon E path in
    let '(w1, ino) := open_config E w d in
    match feature_key (e_feat E) key with
    | None => p_abort pr
    | Some k =>
        let '(w2, nonce) := open_nonce E w1 d in
        match open_file (e_plat E) (feature_codec (e_feat E) k nonce) (w_seed w2) (inode w2 ino) with
        | Some _ => false
        | None => fatal (len (inode w2 ino)) (inode w2 ino)
        end
    end
  else p_abort pr.

(** A call answered with a panic. *)
Definition panics (w : world) (e : event) : bool :=
  match step E w e with Some (_, RPanic) => true | _ => false end.

(** The event ends the process. *)
Definition ends (w : world) (e : event) : bool :=
  (p_abort pr && panics w e) ||
  match e with
  | ENew h path key => (* mmkv.rs:70-112 *)
      if w_poison w then false
      else match lookup_reg w path with Some _ => false | None => open_ends w path key end
  | EIo i => job_ends w i
  | EClear h => (* mmkv.rs:206-220, mmkv_impl.rs:98-114 *)
      match w_handles w !! h with
      | Some hd =>
          match w_insts w !! h_inst hd with
          | Some x =>
              if i_poison x then false
              else
                (i_valid x && let '(x1, r) := post (i_invalid x) JRemove in
                              match r with ROk _ => queue_ends (set_inst w (h_inst hd) x1) (h_inst hd) | _ => false end)
                || match impl_clear E w (h_inst hd) x with
                   | (w1, ROk _) => open_ends w1 (h_path hd) (h_key hd)
                   | _ => false
                   end
          | None => false
          end
      | None => false
      end
  | EDrop h => (* mmkv.rs:43-55, io_looper.rs:93-104; a second panic while the first unwinds *)
      match w_handles w !! h with
      | Some hd =>
          let '(w1, r1) := do_drop_reg w h hd in
          Nat.eqb (strong w1 (h_inst hd)) 1 &&
          (queue_ends w1 (h_inst hd) || match r1, snd (do_drop_arc E w1 h hd) with RPanic, RPanic => true | _, _ => false end)
      | None => false
      end
  | EDropArc h =>
      match w_handles w !! h with
      | Some hd => Nat.eqb (strong w (h_inst hd)) 1 && queue_ends w (h_inst hd)
      | None => false
      end
  | _ => false
  end.

(** What becomes of the process: it goes on with an answer, or it is gone and
    the files stay as they are. *)
Inductive fate := Lives (w : world) (r : result) | Gone (w : world).

Definition fstep (w : world) (e : event) : option fate :=
  match step E w e with
  | None => None
  | Some (w', r) => Some (if ends w e then Gone (killed w') else Lives w' r)
  end.

(** A run of one process: the answers, and whether it ended by itself. *)
Fixpoint frun (w : world) (es : list event) : option (world * list result * bool) :=
  match es with
  | [] => Some (w, [], false)
  | e :: r =>
      match fstep w e with
      | None => None
      | Some (Gone w1) => Some (w1, [], true)
      | Some (Lives w1 x) => match frun w1 r with Some (w2, xs, b) => Some (w2, x :: xs, b) | None => None end
      end
  end.

End Abort.
