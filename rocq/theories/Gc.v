(** C68: Kotlin objects and the garbage collector.

    An [MMKV] object of the Android library holds a native handle
    (MMKV.kt:49); [finalize] closes it (MMKV.kt:51-53, jni/mod.rs:441-450).
    The virtual machine calls [finalize] on its finalizer thread, at any time
    after the program has let go of the object, or never.  The program runs
    on one thread; every native call it makes waits for its return and holds
    the object (the natives are instance methods, MMKV.kt:56-212).  The calls
    run in the model of Full.v, in which every step of every call, the
    registry, the locks and the background threads are interleaved. *)
From Verif Require Import Bytes Utf8 Proto Value Codec Store Encrypt World Looper Conc Reg Full Spec.
Local Open Scope N_scope.

(** A statement of the program: make an object (MMKV.kt:49, jni/mod.rs:277-294),
    call a method of an object, let go of an object.  Objects are numbered in
    the order they are made. *)
Inductive kstmt := SNew (dir key : bytes) | SCall (x : N) (o : cop) | SForget (x : N).

(** The program waits for call [id]; [true]: a constructor. *)
Record gstate := GState {
  g_full : full;            (* the library *)
  g_rest : list kstmt;      (* what the program has still to do *)
  g_call : option (N * bool);
  g_objs : gmap N N;        (* the objects made and their native handles *)
  g_lost : gset N;          (* let go of, not yet finalized *)
  g_fin : option N;         (* the finalizer thread is closing *)
  g_out : list result       (* the answers the program has got *)
}.

Definition gstate0 (prog : list kstmt) : gstate := GState full0 prog None ∅ ∅ None [].

Definition made (s : gstate) : N := N.of_nat (size (g_objs s)).

Section Gc.
Context (E : env).

Inductive gstep : gstate -> gstate -> Prop :=
| g_new s d key rest id f : (* jni/mod.rs:277-294 *)
    g_rest s = SNew d key :: rest -> g_call s = None -> fstep E (g_full s) (RInv id (OOpen d key)) f ->
    gstep s (GState f rest (Some (id, true)) (g_objs s) (g_lost s) (g_fin s) (g_out s))
| g_use s x h o rest id f : (* jni/mod.rs:113-227, 388-411, 432-439 *)
    g_rest s = SCall x o :: rest -> g_call s = None -> g_objs s !! x = Some h -> x ∉ g_lost s -> fstep E (g_full s) (RInv id (OCall h o)) f ->
    gstep s (GState f rest (Some (id, false)) (g_objs s) (g_lost s) (g_fin s) (g_out s))
| g_made s id v f : (* [MMKV::new] returns a value or panics; a panic ends the process *)
    g_call s = Some (id, true) -> fstep E (g_full s) (RRet id (ROk v)) f ->
    gstep s (GState f (g_rest s) None (<[made s := id]> (g_objs s)) (g_lost s) (g_fin s) (g_out s ++ [ROk v]))
| g_ret s id r f :
    g_call s = Some (id, false) -> fstep E (g_full s) (RRet id r) f -> r <> RPanic ->
    gstep s (GState f (g_rest s) None (g_objs s) (g_lost s) (g_fin s) (g_out s ++ [r]))
| g_forget s x h rest :
    g_rest s = SForget x :: rest -> g_call s = None -> g_objs s !! x = Some h ->
    gstep s (GState (g_full s) rest None (g_objs s) ({[x]} ∪ g_lost s) (g_fin s) (g_out s))
| g_finalize s x h id f : (* MMKV.kt:51-53, jni/mod.rs:443-450 *)
    g_fin s = None -> x ∈ g_lost s -> g_objs s !! x = Some h -> fstep E (g_full s) (RInv id (OClose h)) f ->
    gstep s (GState f (g_rest s) (g_call s) (g_objs s) (g_lost s ∖ {[x]}) (Some id) (g_out s))
| g_finalized s id r f :
    g_fin s = Some id -> fstep E (g_full s) (RRet id r) f -> r <> RPanic ->
    gstep s (GState f (g_rest s) (g_call s) (g_objs s) (g_lost s) None (g_out s))
| g_tau s f : (* inside a call, or a background thread *)
    fstep E (g_full s) RTau f -> gstep s (GState f (g_rest s) (g_call s) (g_objs s) (g_lost s) (g_fin s) (g_out s)).

Inductive gexec (prog : list kstmt) : gstate -> Prop :=
| gx_0 : gexec prog (gstate0 prog)
| gx_step s s' : gexec prog s -> gstep s s' -> gexec prog s'.

End Gc.

(** ** The specification *)

(** The calls of the program; letting go of an object is no call. *)
Fixpoint kevents (n : N) (prog : list kstmt) : list event :=
  match prog with
  | [] => []
  | SNew d key :: r => ENew n d key :: kevents (n + 1) r
  | SCall x o :: r => event_of x o :: kevents n r
  | SForget _ :: r => kevents n r
  end.

(** The answers the program gets are those of its calls on maps, whatever the
    collector and the threads of the library do. *)
Definition answers_right (canon : bytes -> bytes) (prog : list kstmt) (out : list result) : Prop :=
  exists sp, spec_run canon spec0 (take (length out) (kevents 0 prog)) = Some (sp, out).

(** The program never lets go of all its objects of a directory and then
    opens it again. [held]: the directories of the objects it has, [old]: the
    directories it has opened. *)
Fixpoint keeps (held : gmap N bytes) (old : gset bytes) (n : N) (prog : list kstmt) : Prop :=
  match prog with
  | [] => True
  | SNew d _ :: r => (d ∈ old -> exists x, held !! x = Some d) /\ keeps (<[n := d]> held) ({[d]} ∪ old) (n + 1) r
  | SCall _ _ :: r => keeps held old n r
  | SForget x :: r => keeps (delete x held) old n r
  end.

(** The program calls the methods of objects it has. *)
Fixpoint scoped (held : gset N) (n : N) (prog : list kstmt) : Prop :=
  match prog with
  | [] => True
  | SNew _ _ :: r => scoped ({[n]} ∪ held) (n + 1) r
  | SCall x _ :: r => x ∈ held /\ scoped held n r
  | SForget x :: r => x ∈ held /\ scoped (held ∖ {[x]}) n r
  end.
