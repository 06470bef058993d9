(** The background executor, src/core/io_looper.rs, as a transition system:
    any number of concurrent [post] calls, the executor thread, and closing by
    [quit] or [Drop].

    Granularity: every access to shared memory is a step of its own (taking
    and releasing the queue's mutex, pushing, swapping, sending, receiving,
    running one job, joining), and any enabled step may come next.

    A job is a value of type [J]; [exec] runs it on the callback state [T] and
    says whether it returned ([false]: it panicked). *)
From Verif Require Import Bytes.
Local Open Scope N_scope.

(** io_looper.rs:14-17 *)
Inductive signal := SNext | SQuit.

(** Where the executor thread is (io_looper.rs:112-131): in [recv]; taking
    the mutex; holding it before the swap; holding it after the swap; running
    the buffer; returned; ended by a panic of a job. *)
Inductive xpc := XRecv | XLock | XHold | XRel | XRun | XDone | XDead.

(** Where a call of [post] is (io_looper.rs:60-78): taking the mutex; holding
    it before [push_back]; holding it after; before [send]. *)
Inductive ppc := PLock | PHold | PRel | PSend.

(** The owner of the looper: in use; inside [join] (of [quit] or [Drop]);
    finished with that [join] ([true]: Ok); [quit] could not send. *)
Inductive kpc := KOpen | KJoin | KClosed (ok : bool) | KFailed.

(** Who holds the mutex. *)
Inductive owner := OPost (c : N) | OExec.

(** What can be observed: calls of post and their results, jobs starting and
    how they ended, closing.  A call is named by a number, never reused; the
    job of call [c] is also named [c]. *)
Inductive label (J : Type) :=
| LTau | LCall (c : N) (j : J) | LRet (c : N) (ok : bool) | LRun (c : N) (ok : bool)
| LClose | LJoin (ok : bool) | LQuitFailed.
Arguments LTau {J}. Arguments LCall {J} c j. Arguments LRet {J} c ok. Arguments LRun {J} c ok.
Arguments LClose {J}. Arguments LJoin {J} ok. Arguments LQuitFailed {J}.

Section Looper.
Context {J T : Type} (exec : J -> T -> T * bool).

(** [IOLooper] and [Executor] (io_looper.rs:21-29) with the thread's locals. *)
Record loop := Loop {
  l_queue : list (N * J); l_lock : option owner;
  l_chan : list signal; l_sender : bool;
  l_x : xpc; l_buf : list (N * J); l_cb : T;
  l_posts : gmap N (ppc * J); l_next : N; l_k : kpc
}.

(** [IOLooper::new] (io_looper.rs:32-39, 107-136). *)
Definition loop0 (cb : T) : loop := Loop [] None [] true XRecv [] cb ∅ 0 KOpen.

Definition alive (x : xpc) : bool := match x with XDone | XDead => false | _ => true end.

Definition set_x (l : loop) (x : xpc) : loop :=
  Loop (l_queue l) (l_lock l) (l_chan l) (l_sender l) x (l_buf l) (l_cb l) (l_posts l) (l_next l) (l_k l).
Definition set_lock (l : loop) (o : option owner) : loop :=
  Loop (l_queue l) o (l_chan l) (l_sender l) (l_x l) (l_buf l) (l_cb l) (l_posts l) (l_next l) (l_k l).
Definition set_posts (l : loop) (p : gmap N (ppc * J)) : loop :=
  Loop (l_queue l) (l_lock l) (l_chan l) (l_sender l) (l_x l) (l_buf l) (l_cb l) p (l_next l) (l_k l).
Definition set_queue (l : loop) (q : list (N * J)) : loop :=
  Loop q (l_lock l) (l_chan l) (l_sender l) (l_x l) (l_buf l) (l_cb l) (l_posts l) (l_next l) (l_k l).
Definition set_chan (l : loop) (ch : list signal) : loop :=
  Loop (l_queue l) (l_lock l) ch (l_sender l) (l_x l) (l_buf l) (l_cb l) (l_posts l) (l_next l) (l_k l).
Definition set_buf (l : loop) (b : list (N * J)) : loop :=
  Loop (l_queue l) (l_lock l) (l_chan l) (l_sender l) (l_x l) b (l_cb l) (l_posts l) (l_next l) (l_k l).
Definition set_cb (l : loop) (t : T) : loop :=
  Loop (l_queue l) (l_lock l) (l_chan l) (l_sender l) (l_x l) (l_buf l) t (l_posts l) (l_next l) (l_k l).
Definition set_next (l : loop) (n : N) : loop :=
  Loop (l_queue l) (l_lock l) (l_chan l) (l_sender l) (l_x l) (l_buf l) (l_cb l) (l_posts l) n (l_k l).
Definition set_k (l : loop) (s : bool) (k : kpc) : loop :=
  Loop (l_queue l) (l_lock l) (l_chan l) s (l_x l) (l_buf l) (l_cb l) (l_posts l) (l_next l) k.

(** A step of the executor thread. *)
Inductive xstep : loop -> label J -> loop -> Prop :=
| x_next l ch : (* io_looper.rs:113,119 *)
    l_x l = XRecv -> l_chan l = SNext :: ch -> xstep l LTau (set_x (set_chan l ch) XLock)
| x_quit l ch : (* io_looper.rs:116-118 *)
    l_x l = XRecv -> l_chan l = SQuit :: ch -> xstep l LTau (set_x (set_chan l ch) XDone)
| x_gone l : (* io_looper.rs:127-129: all senders are gone and nothing is left *)
    l_x l = XRecv -> l_chan l = [] -> l_sender l = false -> xstep l LTau (set_x l XDone)
| x_lock l : (* io_looper.rs:120 *)
    l_x l = XLock -> l_lock l = None -> xstep l LTau (set_x (set_lock l (Some OExec)) XHold)
| x_swap l : (* io_looper.rs:121 *)
    l_x l = XHold -> xstep l LTau (set_x (set_buf (set_queue l (l_buf l)) (l_queue l)) XRel)
| x_unlock l : (* io_looper.rs:122 *)
    l_x l = XRel -> xstep l LTau (set_x (set_lock l None) XRun)
| x_run l c j b t : (* io_looper.rs:123-125 *)
    l_x l = XRun -> l_buf l = (c, j) :: b -> exec j (l_cb l) = (t, true) ->
    xstep l (LRun c true) (set_cb (set_buf l b) t)
| x_panic l c j b t : (* the job panics: the thread ends *)
    l_x l = XRun -> l_buf l = (c, j) :: b -> exec j (l_cb l) = (t, false) ->
    xstep l (LRun c false) (set_x (set_cb (set_buf l b) t) XDead)
| x_idle l : (* io_looper.rs:123: the buffer is empty *)
    l_x l = XRun -> l_buf l = [] -> xstep l LTau (set_x l XRecv).

(** A step of a [post] call.  Calls are made by shared reference while the
    looper is in use. *)
Inductive pstep : loop -> label J -> loop -> Prop :=
| p_call l j :
    l_k l = KOpen ->
    pstep l (LCall (l_next l) j) (set_next (set_posts l (<[l_next l := (PLock, j)]> (l_posts l))) (l_next l + 1))
| p_lock l c j : (* io_looper.rs:62-64 *)
    l_posts l !! c = Some (PLock, j) -> l_lock l = None ->
    pstep l LTau (set_posts (set_lock l (Some (OPost c))) (<[c := (PHold, j)]> (l_posts l)))
| p_push l c j : (* io_looper.rs:65 *)
    l_posts l !! c = Some (PHold, j) ->
    pstep l LTau (set_posts (set_queue l (l_queue l ++ [(c, j)])) (<[c := (PRel, j)]> (l_posts l)))
| p_unlock l c j : (* the guard is dropped at the end of the closure *)
    l_posts l !! c = Some (PRel, j) ->
    pstep l LTau (set_posts (set_lock l None) (<[c := (PSend, j)]> (l_posts l)))
| p_send l c j : (* io_looper.rs:68-74: Ok as long as the receiver exists *)
    l_posts l !! c = Some (PSend, j) -> l_sender l = true -> alive (l_x l) = true ->
    pstep l (LRet c true) (set_posts (set_chan l (l_chan l ++ [SNext])) (delete c (l_posts l)))
| p_fail l c j : (* io_looper.rs:73,75-77: IOError *)
    l_posts l !! c = Some (PSend, j) -> (l_sender l = false \/ alive (l_x l) = false) ->
    pstep l (LRet c false) (set_posts l (delete c (l_posts l))).

(** Closing needs an exclusive reference (io_looper.rs:41, 94): no call of
    post is in progress. *)
Inductive kstep : loop -> label J -> loop -> Prop :=
| k_quit l : (* io_looper.rs:42-51 *)
    l_k l = KOpen -> l_posts l = ∅ -> alive (l_x l) = true ->
    kstep l LClose (set_chan (set_k l false KJoin) (l_chan l ++ [SQuit]))
| k_quit_failed l : (* io_looper.rs:47-48: the receiver is gone, [?] returns *)
    l_k l = KOpen -> l_posts l = ∅ -> alive (l_x l) = false ->
    kstep l LQuitFailed (set_k l false KFailed)
| k_drop l : (* io_looper.rs:94-96 *)
    l_k l = KOpen -> l_posts l = ∅ -> kstep l LClose (set_k l false KJoin)
| k_join_ok l : (* io_looper.rs:53-55, 99 *)
    l_k l = KJoin -> l_x l = XDone -> kstep l (LJoin true) (set_k l (l_sender l) (KClosed true))
| k_join_err l : (* io_looper.rs:55, 99 *)
    l_k l = KJoin -> l_x l = XDead -> kstep l (LJoin false) (set_k l (l_sender l) (KClosed false)).

Definition lstep (l : loop) (a : label J) (l' : loop) : Prop := xstep l a l' \/ pstep l a l' \/ kstep l a l'.

(** Executions, extended at the end. *)
Inductive lexec (l : loop) : list (label J) -> loop -> Prop :=
| le_nil : lexec l [] l
| le_snoc ls l1 a l2 : lexec l ls l1 -> lstep l1 a l2 -> lexec l (ls ++ [a]) l2.

(** The jobs that were run, in order, and the jobs of all calls. *)
Definition runs (ls : list (label J)) : list N := flat_map (fun a => match a with LRun c _ => [c] | _ => [] end) ls.

(** The callback state after running jobs one after the other. *)
Definition exec_all (js : list J) (t : T) : T := fold_left (fun t j => (exec j t).1) js t.

End Looper.
Arguments loop J T : clear implicits.

(** ** The specification of ordering *)

(** [a] occurs in [l] at an earlier place than [b]. *)
Definition earlier {A} (l : list A) (a b : A) : Prop := exists l1 l2, l = l1 ++ l2 /\ a ∈ l1 /\ b ∈ l2.

(** [order] is an order of submission that an observer of the calls accepts:
    every call that returned Ok is in it, nothing is in it twice, only jobs
    whose submission has begun are in it, and if the call for [c] had returned
    before the call for [d] began then [c] comes first. *)
Record submission_order {J} (ls : list (label J)) (order : list N) : Prop := {
  so_nodup : NoDup order;
  so_called : forall c, c ∈ order -> exists j, LCall c j ∈ ls;
  so_returned : forall c, LRet c true ∈ ls -> c ∈ order;
  so_realtime : forall c ok d j, earlier ls (LRet c ok) (LCall d j) -> d ∈ order -> c ∈ order -> earlier order c d
}.
