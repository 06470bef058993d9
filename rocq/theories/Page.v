(** [page_size] (src/mmkv.rs:18-31) called by any number of threads.

    The static is an atomic accessed with [Ordering::Relaxed].  The memory
    model: the stores to the atomic are totally ordered (its modification
    order, oldest first, the initial 0 at the front); a thread never goes back
    behind what it has seen (coherence), but a load may return any store from
    there on, and a store may be placed anywhere behind what its thread has
    seen.  Nothing else is promised by a relaxed access.

    [sys] is what [sysconf(_SC_PAGESIZE)] answers.

    Simplification: opening a store (mmkv.rs:83-104) and clear_data
    (mmkv.rs:212-218) are represented by their calls of [page_size] only. *)
From Verif Require Import Bytes.
Local Open Scope N_scope.

(** Where a call is: before the load (mmkv.rs:21); before sysconf (23); before
    the store (25); about to return (27, 29). *)
Inductive gpc := GLoad | GSys | GStore (v : N) | GRet (v : N).

Record pages := Pages { g_order : list N; g_seen : gmap N nat; g_calls : gmap N gpc }.

(** mmkv.rs:19: no store but the initial one. *)
Definition pages0 : pages := Pages [0] ∅ ∅.

(** The position up to which thread [t] has seen the order. *)
Definition seen_by (s : pages) (t : N) : nat := default 0%nat (g_seen s !! t).

(** Labels: thread [t] calls; asks the system; the call returns [v]. *)
Inductive plabel := GTau | GCall (t : N) | GAsk (t : N) | GDone (t : N) (v : N).

Section Page.
Context (sys : N).

Inductive gstep : pages -> plabel -> pages -> Prop :=
| g_call s t : g_calls s !! t = None ->
    gstep s (GCall t) (Pages (g_order s) (g_seen s) (<[t := GLoad]> (g_calls s)))
| g_load s t k v : (* mmkv.rs:21-22, 29 *)
    g_calls s !! t = Some GLoad -> (seen_by s t <= k)%nat -> g_order s !! k = Some v ->
    gstep s GTau (Pages (g_order s) (<[t := k]> (g_seen s)) (<[t := if v =? 0 then GSys else GRet v]> (g_calls s)))
| g_sys s t : (* mmkv.rs:23 *)
    g_calls s !! t = Some GSys ->
    gstep s (GAsk t) (Pages (g_order s) (g_seen s) (<[t := GStore sys]> (g_calls s)))
| g_store s t v j : (* mmkv.rs:25: the store becomes number [j] of the order *)
    g_calls s !! t = Some (GStore v) -> (seen_by s t < j)%nat -> (j <= length (g_order s))%nat ->
    gstep s GTau (Pages (take j (g_order s) ++ v :: drop j (g_order s))
      (<[t := j]> ((fun k => if (j <=? k)%nat then S k else k) <$> g_seen s)) (<[t := GRet v]> (g_calls s)))
| g_ret s t v : (* mmkv.rs:27, 29 *)
    g_calls s !! t = Some (GRet v) ->
    gstep s (GDone t v) (Pages (g_order s) (g_seen s) (delete t (g_calls s))).

Inductive gexec : list plabel -> pages -> Prop :=
| ge_nil : gexec [] pages0
| ge_snoc ls s a s' : gexec ls s -> gstep s a s' -> gexec (ls ++ [a]) s'.

(** [t] goes on alone. *)
Inductive galone (t : N) (s : pages) : nat -> pages -> Prop :=
| ga_nil : galone t s 0 s
| ga_snoc n s1 a s2 : galone t s n s1 -> gstep s1 a s2 -> (forall u, u <> t -> g_calls s2 !! u = g_calls s1 !! u) -> galone t s (S n) s2.
End Page.
