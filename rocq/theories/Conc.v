(** Concurrent calls on one open store: any number of threads calling put,
    get, delete and clear_data through any handles of one instance, with the RwLock
    (mmkv.rs:36-41, 181-220), the executor protocol of Looper.v and the
    background thread all interleaved step by step.

    The callback state of the looper is the [world]: running a job is
    [run_job] of World.v.  What the RwLock protects (the map and the flags) is
    kept separately in [c_front]. *)
From Verif Require Import Bytes Utf8 Proto Value Codec Store Encrypt World Looper.
Local Open Scope N_scope.

(** The calls. *)
Inductive cop := CPut (key : bytes) (v : value) | CGet (key : bytes) (t : ty) | CDel (key : bytes) | CClear.

(** Is the call made under the write lock? *)
Definition exclusive (o : cop) : bool := match o with CGet _ _ => false | _ => true end.

(** The part of [MmkvImpl] that calls work on, and the poison flag. *)
Record front := Front { f_map : gmap bytes kv; f_valid : bool; f_poison : bool }.

(** Where a call is: waiting for the RwLock; holding it, before its body;
    about to post; inside [post] (as call [lc] of the looper); for clear_data
    also: about to quit the looper, inside its [join], about to open the files
    again; done, still holding the lock; lock released. *)
Inductive apc :=
| AWant | AHeld | APost (j : job) | AWait (lc : N) | AQuit | AJoin | AOpen | ARet (r : result) | ADone (r : result).

(** The RwLock: readers and writer, by call. *)
Record conc := Conc {
  c_front : front; c_readers : gset N; c_writer : option N;
  c_loop : loop job world;
  c_calls : gmap N (apc * (N * cop)); c_next : N
}.

Inductive clabel := HTau | HInv (c h : N) (o : cop) | HRet (c : N) (r : result).

(** What the body does next: return, post a job, or (clear_data) open the
    files again. *)
Inductive next := NRet (r : result) | NPost (j : job) | NOpen.

(** The body under the lock (mmkv.rs:181-220, mmkv_impl.rs:65-114) up to the
    post: the new state and what comes next. *)
Definition body (f : front) (o : cop) : front * next :=
  if f_poison f then (f, NRet (RErr LockError))
  else match o with
  | CPut key v =>
      match buffer_new key v with
      | ROk m =>
          if f_valid f then
            (Front (<[key := m]> (f_map f)) (f_valid f) (f_poison f), NPost (JWrite m (bool_decide (is_Some (f_map f !! key)))))
          else (f, NRet (RErr InstanceClosed))
      | RErr e => (f, NRet (RErr e))
      | RPanic => (Front (f_map f) (f_valid f) true, NRet RPanic)
      end
  | CGet key t =>
      (f, NRet (if f_valid f then match f_map f !! key with Some m => res_map Some (buffer_parse m t) | None => RErr KeyNotFound end
               else RErr InstanceClosed))
  | CDel key =>
      if f_valid f then
        match f_map f !! key with
        | Some _ => (Front (delete key (f_map f)) (f_valid f) (f_poison f), NPost (JWrite (deleted_buffer key) true))
        | None => (f, NRet (ROk None))
        end
      else (f, NRet (RErr InstanceClosed))
  | CClear => (* mmkv_impl.rs:98-112; already closed: Ok *)
      if f_valid f then (Front ∅ false (f_poison f), NPost JRemove) else (f, NOpen)
  end.

Section Conc.
Context (E : env) (i : N).

(** Running one job in the world (io_looper.rs:123-125). *)
Definition cexec (j : job) (w : world) : world * bool :=
  match w_insts w !! i with
  | Some x =>
      let w' := run_job E (set_inst w i (i_with_queue x [j])) i in
      (w', match w_insts w' !! i with Some x' => match i_io x' with IoRun => true | IoDead => false end | None => false end)
  | None => (w, false)
  end.

(** The state when the concurrent phase begins in world [w], instance [x]
    having no pending jobs. *)
Definition conc0 (w : world) (x : inst) : conc :=
  Conc (Front (i_map x) (i_valid x) (i_poison x)) ∅ None (loop0 w) ∅ 0.

Definition set_call (s : conc) (c : N) (p : apc) (ho : N * cop) : conc :=
  Conc (c_front s) (c_readers s) (c_writer s) (c_loop s) (<[c := (p, ho)]> (c_calls s)) (c_next s).
Definition set_rw (s : conc) (rs : gset N) (wr : option N) : conc :=
  Conc (c_front s) rs wr (c_loop s) (c_calls s) (c_next s).
Definition set_front (s : conc) (f : front) : conc :=
  Conc f (c_readers s) (c_writer s) (c_loop s) (c_calls s) (c_next s).
Definition set_loop (s : conc) (l : loop job world) : conc :=
  Conc (c_front s) (c_readers s) (c_writer s) l (c_calls s) (c_next s).

Inductive cstep : conc -> clabel -> conc -> Prop :=
| c_call s h o : (* a thread calls *)
    cstep s (HInv (c_next s) h o)
      (Conc (c_front s) (c_readers s) (c_writer s) (c_loop s) (<[c_next s := (AWant, (h, o))]> (c_calls s)) (c_next s + 1))
| c_read s c h o : (* mmkv.rs:190: RwLock::read *)
    c_calls s !! c = Some (AWant, (h, o)) -> exclusive o = false -> c_writer s = None ->
    cstep s HTau (set_call (set_rw s ({[c]} ∪ c_readers s) (c_writer s)) c AHeld (h, o))
| c_write s c h o : (* mmkv.rs:182,197: RwLock::write *)
    c_calls s !! c = Some (AWant, (h, o)) -> exclusive o = true -> c_writer s = None -> c_readers s = ∅ ->
    cstep s HTau (set_call (set_rw s (c_readers s) (Some c)) c AHeld (h, o))
| c_body_ret s c h o f r :
    c_calls s !! c = Some (AHeld, (h, o)) -> body (c_front s) o = (f, NRet r) ->
    cstep s HTau (set_call (set_front s f) c (ARet r) (h, o))
| c_body_job s c h o f j :
    c_calls s !! c = Some (AHeld, (h, o)) -> body (c_front s) o = (f, NPost j) ->
    cstep s HTau (set_call (set_front s f) c (APost j) (h, o))
| c_body_open s c h o f :
    c_calls s !! c = Some (AHeld, (h, o)) -> body (c_front s) o = (f, NOpen) ->
    cstep s HTau (set_call (set_front s f) c AOpen (h, o))
| c_post s c h o j l : (* post is entered *)
    c_calls s !! c = Some (APost j, (h, o)) -> pstep (c_loop s) (LCall (l_next (c_loop s)) j) l ->
    cstep s HTau (set_call (set_loop s l) c (AWait (l_next (c_loop s))) (h, o))
| c_posting s l : (* a step inside post *)
    pstep (c_loop s) LTau l -> cstep s HTau (set_loop s l)
| c_posted s c h o lc ok l : (* post returns *)
    c_calls s !! c = Some (AWait lc, (h, o)) -> pstep (c_loop s) (LRet lc ok) l ->
    cstep s HTau (set_call (set_loop s l) c
      (if ok then match o with CClear => AQuit | _ => ARet (ROk None) end else ARet (RErr IOError)) (h, o))
| c_quit s c h o l : (* mmkv_impl.rs:113, io_looper.rs:42-51: Quit is sent *)
    c_calls s !! c = Some (AQuit, (h, o)) -> kstep (c_loop s) LClose l -> l_chan l = l_chan (c_loop s) ++ [SQuit] ->
    cstep s HTau (set_call (set_loop s l) c AJoin (h, o))
| c_quit_failed s c h o l : (* io_looper.rs:47-48 *)
    c_calls s !! c = Some (AQuit, (h, o)) -> kstep (c_loop s) LQuitFailed l ->
    cstep s HTau (set_call (set_loop s l) c (ARet (RErr IOError)) (h, o))
| c_join s c h o ok l : (* io_looper.rs:50-56 *)
    c_calls s !! c = Some (AJoin, (h, o)) -> kstep (c_loop s) (LJoin ok) l ->
    cstep s HTau (set_call (set_loop s l) c (if ok then AOpen else ARet (RErr IOError)) (h, o))
| c_reopen s c h o hd w y : (* mmkv.rs:212-218: the new MmkvImpl replaces the old one, whose thread is gone *)
    c_calls s !! c = Some (AOpen, (h, o)) -> w_handles (l_cb (c_loop s)) !! h = Some hd ->
    open_impl E (l_cb (c_loop s)) (h_path hd) (h_key hd) = (w, Some y) -> (exists ok, l_k (c_loop s) = KClosed ok) ->
    cstep s HTau (set_call (set_loop (set_front s (Front (i_map y) (i_valid y) (i_poison y))) (loop0 (set_inst w i y))) c (ARet (ROk None)) (h, o))
| c_reopen_join s c h o hd w y : (* the same when quit has never joined: the drop of the old one joins the thread (io_looper.rs:98-99), which panics if that died *)
    c_calls s !! c = Some (AOpen, (h, o)) -> w_handles (l_cb (c_loop s)) !! h = Some hd ->
    open_impl E (l_cb (c_loop s)) (h_path hd) (h_key hd) = (w, Some y) -> (forall ok, l_k (c_loop s) <> KClosed ok) -> alive (l_x (c_loop s)) = false ->
    cstep s HTau (set_call (set_loop (set_front s (Front (i_map y) (i_valid y) (match l_x (c_loop s) with XDead => true | _ => i_poison y end)))
      (loop0 (set_inst w i y))) c (ARet (match l_x (c_loop s) with XDead => RPanic | _ => ROk None end)) (h, o))
| c_reopen_failed s c h o hd w : (* the files cannot be opened: a panic with the write lock held *)
    c_calls s !! c = Some (AOpen, (h, o)) -> w_handles (l_cb (c_loop s)) !! h = Some hd ->
    open_impl E (l_cb (c_loop s)) (h_path hd) (h_key hd) = (w, None) ->
    cstep s HTau (set_call (set_loop (set_front s (Front (f_map (c_front s)) (f_valid (c_front s)) true)) (set_cb (c_loop s) w)) c (ARet RPanic) (h, o))
| c_background s a l : (* a step of the background thread *)
    xstep cexec (c_loop s) a l -> cstep s HTau (set_loop s l)
| c_release s c h o r : (* the guard is dropped *)
    c_calls s !! c = Some (ARet r, (h, o)) ->
    cstep s HTau (set_call (set_rw s (c_readers s ∖ {[c]}) (if decide (c_writer s = Some c) then None else c_writer s)) c (ADone r) (h, o))
| c_return s c h o r :
    c_calls s !! c = Some (ADone r, (h, o)) ->
    cstep s (HRet c r) (Conc (c_front s) (c_readers s) (c_writer s) (c_loop s) (delete c (c_calls s)) (c_next s)).

Inductive cexecn (s : conc) : list clabel -> conc -> Prop :=
| ce_nil : cexecn s [] s
| ce_snoc ls s1 a s2 : cexecn s ls s1 -> cstep s1 a s2 -> cexecn s (ls ++ [a]) s2.

End Conc.

(** ** The specification of linearizability *)

(** The event of World.v and Spec.v a call stands for. *)
Definition event_of (h : N) (o : cop) : event :=
  match o with CPut key v => EPut h key v | CGet key t => EGet h key t | CDel key => EDelete h key | CClear => EClear h end.

(** [lin] is a linearization of the history [ls]: an order of calls with
    results; every call that returned is in it with the result it returned;
    only calls that began are in it, each once; and a call that returned
    before another began comes before it. *)
Record linearization (ls : list clabel) (lin : list (N * (N * cop) * result)) : Prop := {
  ln_nodup : NoDup (map (fun x => x.1.1) lin);
  ln_called : forall c h o r, (c, (h, o), r) ∈ lin -> HInv c h o ∈ ls;
  ln_returned : forall c r, HRet c r ∈ ls -> exists h o, (c, (h, o), r) ∈ lin;
  ln_realtime : forall c r d h o, earlier ls (HRet c r) (HInv d h o) ->
    d ∈ map (fun x => x.1.1) lin -> earlier (map (fun x => x.1.1) lin) c d
}.

(** The calls that began in a history. *)
Definition inv_ids (ls : list clabel) : list N := flat_map (fun a => match a with HInv c _ _ => [c] | _ => [] end) ls.

(** The call of a linearized operation. *)
Definition lin_event (x : N * (N * cop) * result) : event := event_of x.1.2.1 x.1.2.2.
