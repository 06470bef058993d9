(** Power failures.

    Crash.v treats kills of the process, where the kernel keeps every store
    made through the memory map.  When the machine itself stops, only what was
    written back to the disk is left.  The kernel writes a changed page back
    whenever it likes; the library forces it to in three places:

    - [Config::new] (config.rs:28): [sync_all] on opening;
    - [Config::expand] (config.rs:41): [sync_all] before the file grows;
    - [Drop for MemoryMap] (memory_map.rs:43-51, 85-89): [msync] of the first
      [write_offset] bytes, when the map is replaced after growing
      (writer.rs:99-102) and when the background thread ends and drops its
      writer (io_looper.rs:107-136: the writer lives in the thread's closure).

    The nonce file of the encrypted build is written without any sync
    (encrypt.rs:64-75).

    This file gives the device's view of a run: for every directory the list
    of contents the data file (and the nonce file) had, with the syncs in
    between, and what a power failure can make of it.

    Simplifications: names are durable (creating and removing a file is not
    undone); a sync that returns has written its range (with the file's length);
    disk blocks are written in one piece, their size [blk] is arbitrary; and a
    store through the map counts as one change ([torn] in Crash.v goes below
    that).  Opens that panic are not logged. *)
From Verif Require Import Bytes Utf8 Proto Value Codec Store Encrypt World Crash.
Local Open Scope N_scope.

(** What happens to one file. *)
Inductive dev :=
| DNew                 (* a new file takes the name *)
| DVer (f : bytes)     (* the content becomes [f] *)
| DSync (n : N).       (* the first [n] bytes and the length are forced to disk *)

Definition is_sync (x : dev) : bool := match x with DSync _ => true | _ => false end.
Definition is_new (x : dev) : bool := match x with DNew => true | _ => false end.

(** ** What the disk may hold *)

(** The content [f] the file had at some time may still be what the disk holds
    where [covers n] says a sync of [n] bytes would have hit: since [f] was
    replaced by something else there was no such sync. *)
Definition since (covers : N -> bool) (l : list dev) (f : bytes) : Prop :=
  exists l1 l2, l = l1 ++ DVer f :: l2 /\ Forall (fun x => is_new x = false) l2 /\
    forall a n c, l2 = a ++ DSync n :: c -> covers n = true -> Forall (fun x => is_sync x = true) a.

(** The byte at offset [o]; files read as zero behind their end. *)
Definition byte_at (f : bytes) (o : N) : byte := default x00 (f !! N.to_nat o).

(** A file a power failure can leave: some length the file had, and every
    block as it was at some time since it was last synced. *)
Definition power_image (blk : N) (l : list dev) (f' : bytes) : Prop :=
  (exists f, since (fun _ => true) l f /\ len f' = len f) /\
  forall j, exists f, since (fun n => j * blk <? n) l f /\
    forall o, j * blk <= o -> o < (j + 1) * blk -> o < len f' -> byte_at f' o = byte_at f o.

(** ** What the library does to the files *)

(** [Drop for MemoryMap] (memory_map.rs:85-89): how many bytes are flushed. *)
Definition map_flush (P : plat) (f : bytes) : N := default 0 (write_offset P f).

(** The effects of a background write on the device: [expand]
    (writer.rs:99-102, config.rs:36-49) syncs, grows the file and drops the
    old map. *)
Fixpoint eff_log (P : plat) (es : list eff) (f : bytes) : list dev :=
  match es with
  | [] => []
  | FStore a d :: es => DVer (apply_eff (FStore a d) f) :: eff_log P es (apply_eff (FStore a d) f)
  | FExtend n :: es =>
      DSync (len f) :: DVer (apply_eff (FExtend n) f) :: DSync (map_flush P f) :: eff_log P es (apply_eff (FExtend n) f)
  end.

(** One background job of store [i] (io_looper.rs:123-125; [run_job]). *)
Definition job_log (E : env) (w : world) (i : N) : list dev :=
  match w_insts w !! i with
  | Some x =>
      match i_io x with
      | IoRun => eff_log (e_plat E) (job_effects E w i) (inode w (i_ino x))
      | IoDead => []
      end
  | None => []
  end.

Fixpoint jobs_log (E : env) (n : nat) (w : world) (i : N) : list dev :=
  match n with
  | O => []
  | S n => job_log E w i ++ jobs_log E n (run_job E w i) i
  end.

(** The thread finishes its queue and drops its writer (io_looper.rs:93-136,
    memory_map.rs:85-89). *)
Definition close_log (E : env) (w : world) (i : N) : list dev :=
  match w_insts w !! i with
  | Some x => jobs_log E (length (i_queue x)) w i ++ [DSync (map_flush (e_plat E) (inode (drain E w i) (i_ino x)))]
  | None => []
  end.

(** [Config::new] (config.rs:15-34) on directory [d]. *)
Definition open_log (E : env) (w : world) (d : bytes) : list dev :=
  match file_at w d with
  | Some f => [DVer (config_new (e_plat E) f); DSync (len (config_new (e_plat E) f))]
  | None => [DNew; DVer []; DVer (config_new (e_plat E) []); DSync (len (config_new (e_plat E) []))]
  end.

(** [StreamWrapper::init] (encrypt.rs:56-103): a new nonce file is created
    empty and written; nothing is synced. *)
Definition nonce_log (E : env) (w : world) (d : bytes) : list dev :=
  if is_encrypted (e_feat E) then
    let '(n, _) := init_nonce (d_meta (dir_of w d)) (e_rng E (w_rng w)) in
    match d_meta (dir_of w d) with
    | Some m => if Nat.eqb (length m) nonce_len then [] else [DNew; DVer []; DVer n]
    | None => [DNew; DVer []; DVer n]
    end
  else [].

(** The directory a call opens anew, and the world it opens it in: [MMKV::new]
    without a live instance (mmkv.rs:70-112), and [clear_data] after the old
    file is removed (mmkv.rs:206-220). *)
Definition opens (E : env) (w : world) (e : event) : option (world * bytes) :=
  match e with
  | ENew h p _ =>
      if w_poison w then None
      else match lookup_reg w p with
           | Some _ => None
           | None => if e_dir_ok E p then Some (w, e_canon E p) else None
           end
  | EClear h =>
      match w_handles w !! h with
      | Some hd =>
          match w_insts w !! h_inst hd with
          | Some x =>
              if i_poison x then None
              else match impl_clear E w (h_inst hd) x with
                   | (w1, ROk _) => if e_dir_ok E (h_path hd) then Some (w1, e_canon E (h_path hd)) else None
                   | _ => None
                   end
          | None => None
          end
      | None => None
      end
  | _ => None
  end.

(** The data file of directory [d] during one event. *)
Definition data_log (E : env) (w : world) (e : event) (d : bytes) : list dev :=
  match e with
  | EIo i =>
      match w_insts w !! i with
      | Some x => if decide (i_dir x = d) then job_log E w i else []
      | None => []
      end
  | EDrop h | EDropArc h =>
      match w_handles w !! h with
      | Some hd =>
          match w_insts w !! h_inst hd with
          | Some x => if decide (i_dir x = d) then if Nat.eqb (strong w (h_inst hd)) 1 then close_log E w (h_inst hd) else [] else []
          | None => []
          end
      | None => []
      end
  | _ =>
      match opens E w e with
      | Some (w1, d') => if decide (d' = d) then open_log E w1 d else []
      | None => []
      end
  end.

(** Its nonce file. *)
Definition meta_log (E : env) (w : world) (e : event) (d : bytes) : list dev :=
  match opens E w e with
  | Some (w1, d') => if decide (d' = d) then nonce_log E w1 d else []
  | None => []
  end.

(** Over a whole run. *)
Fixpoint run_log (E : env) (log : env -> world -> event -> bytes -> list dev) (w : world) (es : list event) (d : bytes) : list dev :=
  match es with
  | [] => []
  | e :: es => log E w e d ++ match step E w e with Some (w', _) => run_log E log w' es d | None => [] end
  end.

(** ** The failure *)

(** [w'] is what a power failure in [w], after the calls [es], can leave: no
    process, the same names, every data file and nonce file one of the images
    the disk can hold. *)
Record power_failure (E : env) (blk : N) (es : list event) (w w' : world) : Prop := {
  pf_next_ino : w_next_ino w' = w_next_ino w;
  pf_insts : w_insts w' = ∅;
  pf_handles : w_handles w' = ∅;
  pf_reg : w_reg w' = ∅;
  pf_poison : w_poison w' = false;
  pf_names : forall d, d_data (dir_of w' d) = d_data (dir_of w d);
  pf_data : forall d f', file_at w' d = Some f' -> power_image blk (run_log E data_log world0 es d) f';
  pf_meta : forall d,
    match d_meta (dir_of w d), d_meta (dir_of w' d) with
    | None, None => True
    | Some _, Some m' => power_image blk (run_log E meta_log world0 es d) m'
    | _, _ => False
    end
}.
