(** The specification the library is compared with: one finite map from keys
    to typed values per directory, and handles that name directories.

    Nothing here mentions files, buffers, queues, locks or instances.  The
    vocabulary of calls is [event] of World.v and results are [result]. *)
From Verif Require Import Bytes Value World.
Local Open Scope N_scope.

Definition smap := gmap bytes value.

(** The answer to a typed get. *)
Definition spec_get (m : smap) (key : bytes) (t : ty) : result :=
  match m !! key with
  | None => RErr KeyNotFound
  | Some v => if decide (type_of v = t) then ROk (Some v) else RErr TypeMissMatch
  end.

(** The contents of the directories, and the directory of every open handle. *)
Record spec := Spec { sp_dirs : gmap bytes smap; sp_handles : gmap N bytes }.

Definition spec0 : spec := Spec ∅ ∅.

Definition contents (s : spec) (d : bytes) : smap := default ∅ (sp_dirs s !! d).

Definition set_contents (s : spec) (d : bytes) (m : smap) : spec := Spec (<[d := m]> (sp_dirs s)) (sp_handles s).

(** Effect and answer of a call.  Background events have no effect and answer
    Ok; the other events of World.v (panicking user code, split drops, kills)
    are outside this specification. *)
Definition spec_step (canon : bytes -> bytes) (s : spec) (e : event) : option (spec * result) :=
  let on h f := match sp_handles s !! h with Some d => Some (f d) | None => None end in
  match e with
  | ENew h path _ =>
      match sp_handles s !! h with
      | None => Some (Spec (sp_dirs s) (<[h := canon path]> (sp_handles s)), ROk None)
      | Some _ => None
      end
  | EPut h key v => on h (fun d => (set_contents s d (<[key := v]> (contents s d)), ROk None))
  | EGet h key t => on h (fun d => (s, spec_get (contents s d) key t))
  | EDelete h key => on h (fun d => (set_contents s d (delete key (contents s d)), ROk None))
  | EClear h => on h (fun d => (set_contents s d ∅, ROk None))
  | EDrop h => on h (fun d => (Spec (sp_dirs s) (delete h (sp_handles s)), ROk None))
  | EIo _ => Some (s, ROk None)
  | _ => None
  end.

Fixpoint spec_run (canon : bytes -> bytes) (s : spec) (es : list event) : option (spec * list result) :=
  match es with
  | [] => Some (s, [])
  | e :: r =>
      match spec_step canon s e with
      | Some (s1, x) => match spec_run canon s1 r with Some (s2, xs) => Some (s2, x :: xs) | None => None end
      | None => None
      end
  end.

(** ** Histories, for kills *)

(** Does this call write something to directory [d] (a put, a delete of a
    present key, or a clear through a handle of [d])? *)
Definition mutates (s : spec) (d : bytes) (e : event) : bool :=
  match e with
  | EPut h _ _ => bool_decide (sp_handles s !! h = Some d)
  | EDelete h key => bool_decide (sp_handles s !! h = Some d /\ is_Some (contents s d !! key))
  | EClear h => bool_decide (sp_handles s !! h = Some d)
  | _ => false
  end.

(** How many calls of [es], started in [s], write to [d]. *)
Fixpoint mutations (canon : bytes -> bytes) (s : spec) (d : bytes) (es : list event) : nat :=
  match es with
  | [] => 0
  | e :: r =>
      (if mutates s d e then 1 else 0) +
      match spec_step canon s e with Some (s1, _) => mutations canon s1 d r | None => 0 end
  end.

(** ** Kills *)

(** What may be found after a kill: every directory is as it was after some
    prefix [es1] of the calls [es] made since [s]. *)
Definition rewound (canon : bytes -> bytes) (s : spec) (es : list event) (s' : spec) : Prop :=
  sp_handles s' = ∅ /\
  forall d, exists es1 es2 s1 rs1, es = es1 ++ es2 /\ spec_run canon s es1 = Some (s1, rs1) /\ contents s' d = contents s1 d.

(** Allowed answers of a trace with any number of kills. *)
Inductive sessions (canon : bytes -> bytes) : spec -> list event -> list result -> Prop :=
| sess_last s es s' rs : spec_run canon s es = Some (s', rs) -> sessions canon s es rs
| sess_kill s es s1 rs s' es' rs' :
    spec_run canon s es = Some (s1, rs) -> rewound canon s es s' -> sessions canon s' es' rs' ->
    sessions canon s (es ++ EKill :: es') (rs ++ ROk None :: rs').
