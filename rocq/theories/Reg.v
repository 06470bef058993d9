(** Opening and closing stores concurrently: any number of threads calling
    [MMKV::new], put, get, delete, clear_data and dropping handles, with the
    registry's RwLock (mmkv.rs:33), the double-checked opening (mmkv.rs:70-112)
    and the two halves of a drop (mmkv.rs:43-55, then the field [mmkv_impl])
    interleaved step by step.

    put, get, delete and clear_data run under the instance's own lock and are
    one step each here (World.v); Conc.v and P_Conc.v justify that.  Building
    the store ([Config::new], [MmkvImpl::new]) is one step under the registry's
    write lock. *)
From Verif Require Import Bytes Utf8 Proto Value Codec Store Encrypt World Looper Conc.
Local Open Scope N_scope.

(** The calls.  A handle is named after the call that opened it. *)
Inductive rop := OOpen (path key : bytes) | OClose (h : N) | OCall (h : N) (o : cop).

(** Where a call is: not started or waiting for the read lock ([QWant]);
    holding it ([QRead]); waiting for the write lock ([QWantW]); holding it,
    before the second lookup or the count ([QWrite]), after a failed second
    lookup ([QOpen]), with a new store not yet registered ([QIns]), with the
    count compared ([QRem]); about to release the lock ([QRel]); a drop about to drop its
    [Arc] ([QArc]), having dropped the last one and joining the background
    thread ([QJoin]); about to return ([QDone]). *)
Inductive rpc :=
| QWant | QRead | QWantW | QWrite | QOpen | QIns (i : N) | QRem (last : bool)
| QRel (r : result) | QArc (r : result) | QJoin (r : result) | QDone (r : result).

(** [r_dead]: stores whose last [Arc] is gone but whose background thread has
    not been joined; [Weak::upgrade] fails for them. *)
Record reg := Reg {
  r_world : world; r_readers : gset N; r_writer : option N;
  r_ops : gmap N (rpc * rop); r_next : N; r_dead : gset N
}.

Definition reg0 : reg := Reg world0 ∅ None ∅ 0 ∅.

Inductive rlabel := RTau | RInv (c : N) (o : rop) | RRet (c : N) (r : result).

Definition set_w (s : reg) (w : world) : reg := Reg w (r_readers s) (r_writer s) (r_ops s) (r_next s) (r_dead s).
Definition set_op (s : reg) (c : N) (p : rpc) (o : rop) : reg :=
  Reg (r_world s) (r_readers s) (r_writer s) (<[c := (p, o)]> (r_ops s)) (r_next s) (r_dead s).
Definition set_lk (s : reg) (rs : gset N) (wr : option N) : reg := Reg (r_world s) rs wr (r_ops s) (r_next s) (r_dead s).
Definition set_dead (s : reg) (d : gset N) : reg := Reg (r_world s) (r_readers s) (r_writer s) (r_ops s) (r_next s) d.
Definition begin (s : reg) (p : rpc) (o : rop) : reg :=
  Reg (r_world s) (r_readers s) (r_writer s) (<[r_next s := (p, o)]> (r_ops s)) (r_next s + 1) (r_dead s).

(** The handle a call returned, or gives away for good. *)
Definition add_handle (w : world) (h : N) (path key : bytes) (i : N) : world :=
  set_handles w (<[h := Handle path key i false]> (w_handles w)).
Definition flag_handle (w : world) (h : N) (hd : handle) : world :=
  set_handles w (<[h := Handle (h_path hd) (h_key hd) (h_inst hd) true]> (w_handles w)).

(** [instance_map.get(dir).and_then(|mmkv| mmkv.upgrade())] (mmkv.rs:72,86). *)
Definition find (s : reg) (path : bytes) : option N :=
  match lookup_reg (r_world s) path with
  | Some i => if bool_decide (i ∈ r_dead s) then None else Some i
  | None => None
  end.

(** A thread may use handle [h]: its opening has returned and it has not been
    given up. *)
Definition usable (s : reg) (h : N) : Prop :=
  is_Some (w_handles (r_world s) !! h) /\ r_ops s !! h = None /\ forall c p, r_ops s !! c <> Some (p, OClose h).

(** The panic of the first half of a drop comes first. *)
Definition both (r1 r2 : result) : result := match r1 with RPanic => RPanic | _ => r2 end.

Section Reg.
Context (E : env).

Inductive rstep : reg -> rlabel -> reg -> Prop :=
| q_open s path key : rstep s (RInv (r_next s) (OOpen path key)) (begin s QWant (OOpen path key))
| q_call s h o : usable s h -> rstep s (RInv (r_next s) (OCall h o)) (begin s QWant (OCall h o))
| q_close s h : (* a handle can be dropped when nobody borrows it *)
    usable s h -> (forall c p o, r_ops s !! c = Some (p, OCall h o) -> False) ->
    rstep s (RInv (r_next s) (OClose h)) (begin s QWantW (OClose h))
| q_read s c path key : (* mmkv.rs:71 *)
    r_ops s !! c = Some (QWant, OOpen path key) -> r_writer s = None ->
    rstep s RTau (set_op (set_lk s ({[c]} ∪ r_readers s) (r_writer s)) c QRead (OOpen path key))
| q_read_poisoned s c path key : (* mmkv.rs:71: unwrap *)
    r_ops s !! c = Some (QRead, OOpen path key) -> w_poison (r_world s) = true ->
    rstep s RTau (set_op s c (QRel RPanic) (OOpen path key))
| q_hit s c path key i : (* mmkv.rs:72-80 *)
    r_ops s !! c = Some (QRead, OOpen path key) -> w_poison (r_world s) = false -> find s path = Some i ->
    rstep s RTau (set_op (set_w s (add_handle (r_world s) c path key i)) c (QRel (ROk None)) (OOpen path key))
| q_miss s c path key : (* mmkv.rs:82 *)
    r_ops s !! c = Some (QRead, OOpen path key) -> w_poison (r_world s) = false -> find s path = None ->
    rstep s RTau (set_op (set_lk s (r_readers s ∖ {[c]}) (r_writer s)) c QWantW (OOpen path key))
| q_write s c o : (* mmkv.rs:84; mmkv.rs:45 *)
    r_ops s !! c = Some (QWantW, o) -> r_writer s = None -> r_readers s = ∅ ->
    rstep s RTau (set_op (set_lk s (r_readers s) (Some c)) c QWrite o)
| q_write_poisoned s c path key :
    r_ops s !! c = Some (QWrite, OOpen path key) -> w_poison (r_world s) = true ->
    rstep s RTau (set_op s c (QRel RPanic) (OOpen path key))
| q_again s c path key i : (* mmkv.rs:86-97 *)
    r_ops s !! c = Some (QWrite, OOpen path key) -> w_poison (r_world s) = false -> find s path = Some i ->
    rstep s RTau (set_op (set_w s (add_handle (r_world s) c path key i)) c (QRel (ROk None)) (OOpen path key))
| q_absent s c path key :
    r_ops s !! c = Some (QWrite, OOpen path key) -> w_poison (r_world s) = false -> find s path = None ->
    rstep s RTau (set_op s c QOpen (OOpen path key))
| q_build s c path key w x : (* mmkv.rs:99-105: the Arc exists, nobody else knows it *)
    r_ops s !! c = Some (QOpen, OOpen path key) -> open_impl E (r_world s) path key = (w, Some x) ->
    rstep s RTau (set_op (set_w s
      (World (w_dirs w) (w_inodes w) (w_next_ino w) (<[w_next_inst w := x]> (w_insts w)) (w_next_inst w + 1)
             (w_handles w) (w_reg w) (w_poison w) (w_rng w) (w_seed w))) c (QIns (w_next_inst w)) (OOpen path key))
| q_build_panic s c path key w : (* the write guard is dropped by the panic *)
    r_ops s !! c = Some (QOpen, OOpen path key) -> open_impl E (r_world s) path key = (w, None) ->
    rstep s RTau (set_op (set_w s (set_poison w)) c (QRel RPanic) (OOpen path key))
| q_insert s c path key i : (* mmkv.rs:106-111 *)
    r_ops s !! c = Some (QIns i, OOpen path key) ->
    rstep s RTau (set_op (set_w s (set_reg (add_handle (r_world s) c path key i) (<[path := i]> (w_reg (r_world s))))) c
      (QRel (ROk None)) (OOpen path key))
| q_close_poisoned s c h hd : (* mmkv.rs:45: unwrap; the fields are dropped all the same *)
    r_ops s !! c = Some (QWrite, OClose h) -> w_poison (r_world s) = true -> w_handles (r_world s) !! h = Some hd ->
    rstep s RTau (set_op (set_w s (flag_handle (r_world s) h hd)) c (QRel RPanic) (OClose h))
| q_count s c h hd : (* mmkv.rs:46 *)
    r_ops s !! c = Some (QWrite, OClose h) -> w_poison (r_world s) = false -> w_handles (r_world s) !! h = Some hd ->
    rstep s RTau (set_op s c (QRem (Nat.eqb (strong (r_world s) (h_inst hd)) 1)) (OClose h))
| q_remove s c h hd last : (* mmkv.rs:47 *)
    r_ops s !! c = Some (QRem last, OClose h) -> w_handles (r_world s) !! h = Some hd ->
    rstep s RTau (set_op (set_w s (flag_handle
      (if last then set_reg (r_world s) (delete (h_path hd) (w_reg (r_world s))) else r_world s) h hd)) c (QRel (ROk None)) (OClose h))
| q_release s c o r : (* the guard is dropped *)
    r_ops s !! c = Some (QRel r, o) ->
    rstep s RTau (set_op (set_lk s (r_readers s ∖ {[c]}) (if decide (r_writer s = Some c) then None else r_writer s)) c
      (match o with OClose _ => QArc r | _ => QDone r end) o)
| q_arc s c h hd r : (* the Arc is dropped, not the last one *)
    r_ops s !! c = Some (QArc r, OClose h) -> w_handles (r_world s) !! h = Some hd -> strong (r_world s) (h_inst hd) <> 1%nat ->
    rstep s RTau (set_op (set_w s (set_handles (r_world s) (delete h (w_handles (r_world s))))) c (QDone r) (OClose h))
| q_arc_last s c h hd r : (* the last Arc: Drop for IOLooper begins (io_looper.rs:93-104) *)
    r_ops s !! c = Some (QArc r, OClose h) -> w_handles (r_world s) !! h = Some hd -> strong (r_world s) (h_inst hd) = 1%nat ->
    rstep s RTau (set_op (set_dead s ({[h_inst hd]} ∪ r_dead s)) c (QJoin r) (OClose h))
| q_joined s c h hd r x : (* the thread has finished its queue or died: join, unwrap *)
    r_ops s !! c = Some (QJoin r, OClose h) -> w_handles (r_world s) !! h = Some hd -> w_insts (r_world s) !! h_inst hd = Some x ->
    i_queue x = [] \/ i_io x = IoDead ->
    rstep s RTau (set_op (set_dead (set_w s
        (set_handles (set_insts (r_world s) (delete (h_inst hd) (w_insts (r_world s)))) (delete h (w_handles (r_world s)))))
        (r_dead s ∖ {[h_inst hd]})) c
      (QDone (both r (if i_join x then match i_io x with IoRun => ROk None | IoDead => RPanic end else ROk None))) (OClose h))
| q_do s c h o w r : (* the call takes effect *)
    r_ops s !! c = Some (QWant, OCall h o) -> step E (r_world s) (event_of h o) = Some (w, r) ->
    rstep s RTau (set_op (set_w s w) c (QDone r) (OCall h o))
| q_io s i x : (* a background thread runs a job *)
    w_insts (r_world s) !! i = Some x -> i_queue x <> [] -> i_io x = IoRun ->
    rstep s RTau (set_w s (run_job E (r_world s) i))
| q_return s c o r :
    r_ops s !! c = Some (QDone r, o) ->
    rstep s (RRet c r) (Reg (r_world s) (r_readers s) (r_writer s) (delete c (r_ops s)) (r_next s) (r_dead s)).

Inductive rexec (s : reg) : list rlabel -> reg -> Prop :=
| re_nil : rexec s [] s
| re_snoc ls s1 a s2 : rexec s ls s1 -> rstep s1 a s2 -> rexec s (ls ++ [a]) s2.

End Reg.

(** ** The specification *)

(** The event of Spec.v a call stands for. *)
Definition op_event (c : N) (o : rop) : event :=
  match o with OOpen p k => ENew c p k | OClose h => EDrop h | OCall h o => event_of h o end.

(** [lin] is a linearization of the history [ls]: an order of calls with
    results; every call that returned is in it with the result it returned;
    only calls that began are in it, each once; and a call that returned
    before another began comes before it. *)
Record linearizes (ls : list rlabel) (lin : list (N * rop * result)) : Prop := {
  lz_nodup : NoDup (map (fun x => x.1.1) lin);
  lz_called : forall c o r, (c, o, r) ∈ lin -> RInv c o ∈ ls;
  lz_returned : forall c r, RRet c r ∈ ls -> exists o, (c, o, r) ∈ lin;
  lz_realtime : forall c r d o, earlier ls (RRet c r) (RInv d o) ->
    d ∈ map (fun x => x.1.1) lin -> earlier (map (fun x => x.1.1) lin) c d
}.

(** The calls of a history, as events, in the order they began. *)
Definition begun (ls : list rlabel) : list event :=
  flat_map (fun a => match a with RInv c o => [op_event c o] | _ => [] end) ls.

(** Call [c] has begun and not returned. *)
Definition under_way (ls : list rlabel) (c : N) (o : rop) : Prop := RInv c o ∈ ls /\ forall r, RRet c r ∉ ls.

(** Handle [h] has been opened with this path and key and not been given up. *)
Definition open_handle (ls : list rlabel) (h : N) (path key : bytes) : Prop :=
  RInv h (OOpen path key) ∈ ls /\ (exists v, RRet h (ROk v) ∈ ls) /\ forall c, RInv c (OClose h) ∉ ls.

(** Whenever a directory is being opened while one of its handles is being
    dropped, another handle of it is open. *)
Definition apart (canon : bytes -> bytes) (ls : list rlabel) : Prop :=
  forall ls1 ls2 c path key c' h path' key', ls = ls1 ++ ls2 ->
    under_way ls1 c (OOpen path key) -> under_way ls1 c' (OClose h) -> RInv h (OOpen path' key') ∈ ls1 ->
    canon path' = canon path -> exists h2 key2, open_handle ls1 h2 path key2.
