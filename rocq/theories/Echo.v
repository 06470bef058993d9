(** The log thread when loggers themselves call the library.

    [Logging.v] takes a logger for something that only receives lines.  But a
    logger may call the library, whose functions write lines, and its
    destructor may: the one of the C interface does (ffi/mod.rs:62-67).  Such
    calls are made on the log thread, from inside a job; the queue's mutex is not
    held there (io_looper.rs:122-125), so they post like any other thread's.

    Here running a job is several steps, one per request the logger makes.
    Pushing under the mutex and sending the signal are one step each
    ([Looper.v] has the mutex).  Loggers do not panic here (C51). *)
From Verif Require Import Bytes Logging.
From Coq Require Import ZArith.
Local Open Scope N_scope.

(** Where the log thread is (io_looper.rs:112-131): in [recv]; before the swap;
    running the buffer; inside a job, with the requests the logger has still to
    make, and the same after a push and before its signal. *)
Inductive epc := EIdle | ESwap | ERun | EIn (r : list ljob) | ESend (r : list ljob).

(** [LOG_LEVEL]; the queue, the log thread's buffer and the pending signals
    (io_looper.rs:21-29, 108-112); pushes by other threads whose signal is still to be sent;
    [LogWriter] (logger.rs:14-16); what has come out; all requests in the order
    in which they were pushed. *)
Record elog := ELog {
  e_level : Z; e_queue : list ljob; e_buf : list ljob; e_sig : nat; e_unsent : nat; e_x : epc;
  e_logger : option N; e_out : list out; e_posted : list ljob
}.

(** logger.rs:44-48, 77 *)
Definition elog0 : elog := ELog 5 [] [] 0 0 EIdle None [] [].

Section Echo.
(** [says id lv m]: the requests logger [id] makes while it is given the line;
    [bye id]: those its destructor makes. *)
Context (says : N -> level -> line -> list ljob) (bye : N -> list ljob).

(** What the job asks for while it runs (logger.rs:19-38, 87-96). *)
Definition requests (cur : option N) (j : ljob) : list ljob :=
  match j with
  | JLine lv m => match cur, lv with Some _, Off => [] | Some id, _ => says id lv m | None, _ => [] end
  | JLogger _ => match cur with Some id => bye id | None => [] end
  end.

(** What comes out of it, and the logger afterwards (logger.rs:19-38, 87-96). *)
Definition puts_out (cur : option N) (j : ljob) : list out :=
  match j with
  | JLine lv m => match cur, lv with Some _, Off => [] | o, _ => [OLine o lv m] end
  | JLogger _ => match cur with Some id => [ORelease id] | None => [] end
  end.
Definition logger_then (cur : option N) (j : ljob) : option N := match j with JLogger o => o | JLine _ _ => cur end.

(** The level test of [log] (logger.rs:66-72). *)
Definition passes (s : elog) (j : ljob) : bool := match j with JLine lv _ => negb (e_level s <? code lv)%Z | JLogger _ => true end.

(** [post], up to the signal (io_looper.rs:60-66). *)
Definition push (s : elog) (j : ljob) (u : nat) (x : epc) : elog :=
  ELog (e_level s) (e_queue s ++ [j]) (e_buf s) (e_sig s) u x (e_logger s) (e_out s) (e_posted s ++ [j]).

(** A request by any other thread, in two steps; a change of the level. *)
Inductive prog_step : elog -> elog -> Prop :=
| pr_level s l : prog_step s (ELog (code l) (e_queue s) (e_buf s) (e_sig s) (e_unsent s) (e_x s) (e_logger s) (e_out s) (e_posted s))
| pr_push s j : passes s j = true -> prog_step s (push s j (S (e_unsent s)) (e_x s))
| pr_send s n : (* io_looper.rs:68-74 *)
    e_unsent s = S n -> prog_step s (ELog (e_level s) (e_queue s) (e_buf s) (S (e_sig s)) n (e_x s) (e_logger s) (e_out s) (e_posted s)).

(** The log thread (io_looper.rs:112-131). *)
Inductive thread_step : elog -> elog -> Prop :=
| th_next s n : e_x s = EIdle -> e_sig s = S n ->
    thread_step s (ELog (e_level s) (e_queue s) (e_buf s) n (e_unsent s) ESwap (e_logger s) (e_out s) (e_posted s))
| th_swap s : e_x s = ESwap ->
    thread_step s (ELog (e_level s) (e_buf s) (e_queue s) (e_sig s) (e_unsent s) ERun (e_logger s) (e_out s) (e_posted s))
| th_run s j b : e_x s = ERun -> e_buf s = j :: b ->
    thread_step s (ELog (e_level s) (e_queue s) b (e_sig s) (e_unsent s) (EIn (requests (e_logger s) j)) (logger_then (e_logger s) j)
                        (e_out s ++ puts_out (e_logger s) j) (e_posted s))
| th_empty s : e_x s = ERun -> e_buf s = [] ->
    thread_step s (ELog (e_level s) (e_queue s) (e_buf s) (e_sig s) (e_unsent s) EIdle (e_logger s) (e_out s) (e_posted s))
| th_push s j r : e_x s = EIn (j :: r) -> passes s j = true -> thread_step s (push s j (e_unsent s) (ESend r))
| th_skip s j r : e_x s = EIn (j :: r) -> passes s j = false ->
    thread_step s (ELog (e_level s) (e_queue s) (e_buf s) (e_sig s) (e_unsent s) (EIn r) (e_logger s) (e_out s) (e_posted s))
| th_send s r : e_x s = ESend r ->
    thread_step s (ELog (e_level s) (e_queue s) (e_buf s) (S (e_sig s)) (e_unsent s) (EIn r) (e_logger s) (e_out s) (e_posted s))
| th_done s : e_x s = EIn [] ->
    thread_step s (ELog (e_level s) (e_queue s) (e_buf s) (e_sig s) (e_unsent s) ERun (e_logger s) (e_out s) (e_posted s)).

(** Histories, and the log thread left to itself. *)
Inductive reaches : elog -> Prop :=
| rc_start : reaches elog0
| rc_prog s s' : reaches s -> prog_step s s' -> reaches s'
| rc_thread s s' : reaches s -> thread_step s s' -> reaches s'.

Inductive thread_steps : nat -> elog -> elog -> Prop :=
| ts_0 s : thread_steps 0 s s
| ts_S n s s1 s2 : thread_step s s1 -> thread_steps n s1 s2 -> thread_steps (S n) s s2.

(** The requests that are still to be carried out, with those the running
    job has still to make. *)
Definition pending (s : elog) : list ljob := e_buf s ++ e_queue s ++ match e_x s with EIn r | ESend r => r | _ => [] end.

(** A line that is written at level [t] and that a logger is given. *)
Definition loud (t : Z) (j : ljob) : Prop := match j with JLine lv _ => lv <> Off /\ (code lv <= t)%Z | JLogger _ => False end.

(** Everything has been delivered and the thread waits. *)
Definition at_rest (s : elog) : Prop := e_x s = EIdle /\ e_queue s = [] /\ e_buf s = [].

End Echo.
