(** The logging subsystem: src/log/mod.rs, src/log/logger.rs.  The log thread
    is an executor of Looper.v whose callback state is the installed logger
    and everything that has come out so far. *)
From Verif Require Import Bytes Looper.
From Coq Require Import ZArith.
Local Open Scope N_scope.

(** [LogLevel] (log/mod.rs:19-27) and its discriminants. *)
Inductive level := Off | Error | Warn | Info | Debug | Verbose.

Definition code (l : level) : Z :=
  match l with Off => 0 | Error => 1 | Warn => 2 | Info => 3 | Debug => 4 | Verbose => 5 end.

(** [TryFrom<i32>] (log/mod.rs:28-43): the guards, in order. *)
Definition of_code (v : Z) : option level :=
  if (v =? code Off)%Z then Some Off
  else if (v =? code Error)%Z then Some Error
  else if (v =? code Warn)%Z then Some Warn
  else if (v =? code Info)%Z then Some Info
  else if (v =? code Debug)%Z then Some Debug
  else if (v =? code Verbose)%Z then Some Verbose
  else None.

(** [Display] (log/mod.rs:45-56): the letter printed. *)
Definition letter (l : level) : bytes :=
  match l with Off => [] | Error => [n2b 69] | Warn => [n2b 87] | Info => [n2b 73] | Debug => [n2b 68] | Verbose => [n2b 86] end.

(** A logger object is named by a number; a line is its tag and text already
    put together (logger.rs:54). *)
Definition line := bytes.

(** What comes out: a line given to a logger ([None]: printed) and the
    release of a logger. *)
Inductive out := OLine (to : option N) (lv : level) (m : line) | ORelease (id : N).

(** The jobs of the log thread: a line (logger.rs:56-60) or the replacement
    of the logger (logger.rs:89-94). *)
Inductive ljob := JLine (lv : level) (m : line) | JLogger (o : option N).

(** [LogWriter] (logger.rs:14-16) with the output. *)
Definition lstate := (option N * list out)%type.

(** Running a job.  [panics (Some id) lv m]: the user's logger panics on that
    line; [panics None lv m]: printing it fails (println! panics when standard
    output is gone, a closed pipe for instance).  Either ends the log thread.
    A logger's destructor is assumed not to panic. *)
Definition log_exec (panics : option N -> level -> line -> bool) (j : ljob) (t : lstate) : lstate * bool :=
  match j with
  | JLine lv m =>                                     (* logger.rs:19-38 *)
      match t.1 with
      | Some id => match lv with
                   | Off => (t, true)
                   | _ => ((t.1, t.2 ++ [OLine (Some id) lv m]), negb (panics (Some id) lv m))
                   end
      | None => ((t.1, t.2 ++ [OLine None lv m]), negb (panics None lv m))
      end
  | JLogger o => ((o, t.2 ++ match t.1 with Some id => [ORelease id] | None => [] end), true)
  end.

(** The system: [LOG_LEVEL] (logger.rs:77) and the log thread. *)
Record logsys := LogSys { g_level : Z; g_loop : loop ljob lstate }.

(** logger.rs:44-48, 77; the lazy creation of the thread is not modelled. *)
Definition logsys0 : logsys := LogSys 5 (loop0 (None, [])).

(** What can be seen: level changes, log calls that are filtered out, log
    calls and logger replacements that are submitted (as call [c] of the
    looper), and steps of the looper. *)
Inductive glabel :=
| GLevel (l : level) | GSkip (lv : level) (m : line) | GLog (c : N) (lv : level) (m : line)
| GLogger (c : N) (o : option N) | GLoop (a : label ljob).

Section Steps.
Context (panics : option N -> level -> line -> bool).

Inductive gstep : logsys -> glabel -> logsys -> Prop :=
| g_level_set s l : (* logger.rs:79-81 *)
    gstep s (GLevel l) (LogSys (code l) (g_loop s))
| g_skip s lv m : (* logger.rs:67-69 *)
    (g_level s < code lv)%Z -> gstep s (GSkip lv m) s
| g_log s lv m l : (* logger.rs:67, 70, 50-61 *)
    ~ (g_level s < code lv)%Z -> pstep (g_loop s) (LCall (l_next (g_loop s)) (JLine lv m)) l ->
    gstep s (GLog (l_next (g_loop s)) lv m) (LogSys (g_level s) l)
| g_logger s o l : (* logger.rs:87-96 *)
    pstep (g_loop s) (LCall (l_next (g_loop s)) (JLogger o)) l ->
    gstep s (GLogger (l_next (g_loop s)) o) (LogSys (g_level s) l)
| g_post s a l : (* inside or at the return of a post *)
    pstep (g_loop s) a l -> (forall c j, a <> LCall c j) -> gstep s (GLoop a) (LogSys (g_level s) l)
| g_thread s a l : (* the log thread *)
    xstep (log_exec panics) (g_loop s) a l -> gstep s (GLoop a) (LogSys (g_level s) l).

Inductive gexec (s : logsys) : list glabel -> logsys -> Prop :=
| ge_nil : gexec s [] s
| ge_snoc ls s1 a s2 : gexec s ls s1 -> gstep s1 a s2 -> gexec s (ls ++ [a]) s2.

End Steps.

(** The history of the looper. *)
Definition loop_labels (ls : list glabel) : list (label ljob) :=
  flat_map (fun a => match a with
                     | GLevel _ | GSkip _ _ => []
                     | GLog c lv m => [LCall c (JLine lv m)]
                     | GLogger c o => [LCall c (JLogger o)]
                     | GLoop a => [a]
                     end) ls.

(** ** The specification *)

(** The threshold after a history: the last level set, initially Verbose. *)
Definition threshold (ls : list glabel) : level :=
  fold_left (fun l a => match a with GLevel l' => l' | _ => l end) ls Verbose.

(** Severity: [at_or_above t l]: a line of level [l] is wanted at threshold [t]. *)
Definition wanted (t l : level) : bool :=
  match t, l with
  | _, Off => true
  | Off, _ => false
  | Error, Error => true
  | Warn, (Error | Warn) => true
  | Info, (Error | Warn | Info) => true
  | Debug, (Error | Warn | Info | Debug) => true
  | Verbose, _ => true
  | _, _ => false
  end.

(** The logger installed by a sequence of requests. *)
Definition installed (js : list ljob) : option N :=
  fold_left (fun cur j => match j with JLogger o => o | _ => cur end) js None.

(** What a sequence of requests puts out: every line goes to the logger
    installed by the requests before it; every replacement releases the logger
    it replaces.  (A line of level Off, which no macro of the crate issues, is
    printed but not given to a logger.) *)
Definition deliveries (js : list ljob) : list out :=
  flat_map (fun k => match js !! k with
                     | Some (JLine lv m) =>
                         match installed (take k js), lv with Some _, Off => [] | o, _ => [OLine o lv m] end
                     | Some (JLogger _) => match installed (take k js) with Some id => [ORelease id] | None => [] end
                     | None => []
                     end) (seq 0 (length js)).

(** The loggers installed, in order. *)
Definition loggers (js : list ljob) : list N :=
  flat_map (fun j => match j with JLogger (Some id) => [id] | _ => [] end) js.
