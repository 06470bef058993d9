(** Several processes using the library on one machine (README.md:25-26:
    "cannot guarantee cross-process data consistency.  If you want to use it
    in a cross-process scenario, please ensure that there is no competing
    write").

    Every process has the statics and the heap of World.v for itself (the
    registry mmkv.rs:33, the open stores with their background threads, the
    handles); the file system is shared, also the bytes of mapped files
    (memory_map.rs:22-42 maps with MAP_SHARED).  One step is one call of one
    process, one background write of one process, or the death of one
    process: as in World.v a background write is one step here; what a
    process sees that opens a file while another is in the middle of a write
    is Crash.v's subject (P_Procs3.v, C64). *)
From Verif Require Import Bytes Utf8 Proto Value Codec Store Encrypt World Spec.
Local Open Scope N_scope.

(** What all processes share.  [k_inst] only makes the names of stores unique
    on the machine; [k_rng] and [k_seed] number the random values drawn. *)
Record disk := Disk { k_dirs : gmap bytes dirst; k_inodes : gmap N bytes; k_ino : N; k_inst : N; k_rng : N; k_seed : N }.

(** What one process has in memory. *)
Record mem := Mem { p_insts : gmap N inst; p_handles : gmap N handle; p_reg : gmap bytes N; p_poison : bool }.

Definition mem0 : mem := Mem ∅ ∅ ∅ false.

Record machine := Machine { m_disk : disk; m_procs : gmap N mem }.

Definition machine0 : machine := Machine (Disk ∅ ∅ 0 0 0 0) ∅.

Definition proc (m : machine) (p : N) : mem := default mem0 (m_procs m !! p).

(** A process in its surroundings is a world, and a world is a process and a
    file system. *)
Definition join (k : disk) (x : mem) : world :=
  World (k_dirs k) (k_inodes k) (k_ino k) (p_insts x) (k_inst k) (p_handles x) (p_reg x) (p_poison x) (k_rng k) (k_seed k).
Definition disk_of (w : world) : disk := Disk (w_dirs w) (w_inodes w) (w_next_ino w) (w_next_inst w) (w_rng w) (w_seed w).
Definition mem_of (w : world) : mem := Mem (w_insts w) (w_handles w) (w_reg w) (w_poison w).

Section Procs.
Context (E : env).

(** Process [p] takes a step. *)
Definition mstep (m : machine) (p : N) (e : event) : option (machine * result) :=
  match step E (join (m_disk m) (proc m p)) e with
  | Some (w, r) => Some (Machine (disk_of w) (<[p := mem_of w]> (m_procs m)), r)
  | None => None
  end.

Fixpoint mrun (m : machine) (es : list (N * event)) : option (machine * list result) :=
  match es with
  | [] => Some (m, [])
  | (p, e) :: l =>
      match mstep m p e with
      | Some (m1, r) => match mrun m1 l with Some (m2, rs) => Some (m2, r :: rs) | None => None end
      | None => None
      end
  end.

End Procs.

(** * Taking turns

    Handles are named uniquely on the machine, and [guest] says which of them
    are only for reading.  [hs]: the process and the directory of every open
    handle. *)
Definition opened (canon : bytes -> bytes) (hs : gmap N (N * bytes)) (p : N) (e : event) : gmap N (N * bytes) :=
  match e with
  | ENew h path _ => <[h := (p, canon path)]> hs
  | EDrop h => delete h hs
  | EKill => filter (fun x : N * (N * bytes) => x.2.1 <> p) hs
  | _ => hs
  end.

(** A directory is opened for writing only while no other process has it open
    for writing; one process opens it either for writing or for reading; what
    is open for reading is not written to. *)
Definition turn (canon : bytes -> bytes) (guest : N -> bool) (hs : gmap N (N * bytes)) (p : N) (e : event) : Prop :=
  match e with
  | ENew h path _ =>
      hs !! h = None /\
      forall h' q, hs !! h' = Some (q, canon path) ->
        (q = p /\ guest h' = guest h) \/ (q <> p /\ (guest h = true \/ guest h' = true))
  | EPut h _ _ | EDelete h _ | EClear h => guest h = false
  | _ => True
  end.

Fixpoint turns (canon : bytes -> bytes) (guest : N -> bool) (hs : gmap N (N * bytes)) (es : list (N * event)) : Prop :=
  match es with
  | [] => True
  | (p, e) :: l => turn canon guest hs p e /\ turns canon guest (opened canon hs p e) l
  end.

(** * The specification: directories have versions

    Of every directory there is a list of versions, the newest first.  The
    newest is what the calls of its writer have made; the oldest is what is
    in the file; those in between are still to be written.  A handle belongs
    to a process and a directory; a guest's handle also has the version it
    reads. *)
Record vhandle := VH { vh_proc : N; vh_dir : bytes; vh_sees : option smap }.
Record vspec := VSpec { v_vers : gmap bytes (list smap); v_handles : gmap N vhandle }.

Definition vspec0 : vspec := VSpec ∅ ∅.

Definition versions (s : vspec) (d : bytes) : list smap := default [∅] (v_vers s !! d).
Definition newest (s : vspec) (d : bytes) : smap := hd ∅ (versions s d).
Definition oldest (s : vspec) (d : bytes) : smap := List.last (versions s d) ∅.

Definition put_handle (s : vspec) (h : N) (x : vhandle) : vspec := VSpec (v_vers s) (<[h := x]> (v_handles s)).
Definition put_versions (s : vspec) (d : bytes) (l : list smap) : vspec := VSpec (<[d := l]> (v_vers s)) (v_handles s).

(** Some handle of process [p] is open for writing to [d]. *)
Definition writes_to (s : vspec) (p : N) (d : bytes) : Prop := exists h, v_handles s !! h = Some (VH p d None).

(** What a process finds that opens [d] for reading: what it has seen so far
    if it has the directory open already, otherwise the file. *)
Definition finds (s : vspec) (p : N) (d : bytes) (S : smap) : Prop :=
  (exists h, v_handles s !! h = Some (VH p d (Some S))) \/
  ((forall h S', v_handles s !! h <> Some (VH p d (Some S'))) /\ S = oldest s d).

Inductive vstep (canon : bytes -> bytes) (guest : N -> bool) (s : vspec) (p : N) : event -> result -> vspec -> Prop :=
| v_open h path key :
    v_handles s !! h = None -> guest h = false ->
    vstep canon guest s p (ENew h path key) (ROk None) (put_handle s h (VH p (canon path) None))
| v_visit h path key S :
    v_handles s !! h = None -> guest h = true -> finds s p (canon path) S ->
    vstep canon guest s p (ENew h path key) (ROk None) (put_handle s h (VH p (canon path) (Some S)))
| v_put h d key v :
    v_handles s !! h = Some (VH p d None) ->
    vstep canon guest s p (EPut h key v) (ROk None) (put_versions s d (<[key := v]> (newest s d) :: versions s d))
| v_delete h d key :
    v_handles s !! h = Some (VH p d None) -> is_Some (newest s d !! key) ->
    vstep canon guest s p (EDelete h key) (ROk None) (put_versions s d (delete key (newest s d) :: versions s d))
| v_delete_absent h d key :
    v_handles s !! h = Some (VH p d None) -> newest s d !! key = None ->
    vstep canon guest s p (EDelete h key) (ROk None) s
| v_clear h d :
    v_handles s !! h = Some (VH p d None) ->
    vstep canon guest s p (EClear h) (ROk None) (put_versions s d [∅])
| v_get h d key t :
    v_handles s !! h = Some (VH p d None) ->
    vstep canon guest s p (EGet h key t) (spec_get (newest s d) key t) s
| v_read h d S key t :
    v_handles s !! h = Some (VH p d (Some S)) ->
    vstep canon guest s p (EGet h key t) (spec_get S key t) s
| v_drop h d s' : (* the last handle open for writing: everything is written *)
    v_handles s !! h = Some (VH p d None) -> s' = VSpec (v_vers s) (delete h (v_handles s)) -> ~ writes_to s' p d ->
    vstep canon guest s p (EDrop h) (ROk None) (put_versions s' d [newest s d])
| v_drop_one h d s' :
    v_handles s !! h = Some (VH p d None) -> s' = VSpec (v_vers s) (delete h (v_handles s)) -> writes_to s' p d ->
    vstep canon guest s p (EDrop h) (ROk None) s'
| v_leave h d S :
    v_handles s !! h = Some (VH p d (Some S)) ->
    vstep canon guest s p (EDrop h) (ROk None) (VSpec (v_vers s) (delete h (v_handles s)))
| v_write i d l S : (* the background thread writes the next version *)
    writes_to s p d -> versions s d = l ++ [S] -> l <> [] ->
    vstep canon guest s p (EIo i) (ROk None) (put_versions s d l)
| v_idle i : vstep canon guest s p (EIo i) (ROk None) s
| v_kill s' : (* what is in the files stays *)
    (forall h, v_handles s' !! h = match v_handles s !! h with Some x => if decide (vh_proc x = p) then None else Some x | None => None end) ->
    (forall d, writes_to s p d -> versions s' d = [oldest s d]) -> (forall d, ~ writes_to s p d -> versions s' d = versions s d) ->
    vstep canon guest s p EKill (ROk None) s'.

(** The answers of a whole history. *)
Inductive vrun (canon : bytes -> bytes) (guest : N -> bool) : vspec -> list (N * event) -> list result -> vspec -> Prop :=
| vr_nil s : vrun canon guest s [] [] s
| vr_cons s p e r s1 l rs s2 : vstep canon guest s p e r s1 -> vrun canon guest s1 l rs s2 -> vrun canon guest s ((p, e) :: l) (r :: rs) s2.
