(** The C interface called from several threads: the functions of
    src/ffi/mod.rs (as in Ffi.v) on top of the model of Full.v, in which every
    step of every call of the store is interleaved, with one heap shared by
    all threads.

    A C function enters the store when it is called and makes its result, or
    releases its handle, when the store has answered; in between the other
    threads run.  Making or releasing a result is one step: it works on memory
    no other thread knows, and the allocator is thread safe.  What an [MMKV]
    block contains is kept in [x_obj]: which handle of Full.v it is, named
    after the call that opened it. *)
From Verif Require Import Bytes Utf8 Proto Value Codec Store Encrypt World Looper Conc Reg Full Logging Ffi.
From Coq Require Import ZArith.
Local Open Scope N_scope.

Record xstate := XState { x_full : full; x_heap : heap; x_obj : gmap ptr N; x_calls : gmap N ccall }.

Definition xstate0 : xstate := XState full0 ∅ ∅ ∅.

(** A call that enters the store begins and returns; the others
    ([free_buffer], [set_log_level]) are one step. *)
Inductive xlabel := XTau | XInv (id : N) (c : ccall) | XRet (id : N) (x : cret) (r : result) | XNow (c : ccall).

(** The handle a call goes through. *)
Definition through (c : ccall) : option ptr :=
  match c with CPut p _ _ | CGet p _ _ | CDelete p _ | CClear p | CClose p => Some p | _ => None end.

Definition closing (c : ccall) : bool := match c with CClose _ => true | _ => false end.

(** The texts a call passes are checked before the store is entered
    (ffi/mod.rs:115-121, 223-226, 254-257, 281-284, 299-303, 344). *)
Definition xtexts (c : ccall) : bool :=
  match c with
  | CNew s | CGet _ s _ | CDelete _ s => utf8_valid (cstr s)
  | CPut _ s (VStr x) => utf8_valid (cstr s) && utf8_valid (cstr x)
  | CPut _ s _ => utf8_valid (cstr s)
  | _ => true
  end.

(** The call of the store a C function makes (ffi/mod.rs:210-307, 323-352). *)
Definition xvalue (v : value) : value := match v with VStr x => VStr (cstr x) | _ => v end.
Definition xop (obj : gmap ptr N) (c : ccall) : option rop :=
  match c with
  | CNew d => Some (OOpen (cstr d) [])
  | CPut p k v => option_map (fun h => OCall h (Conc.CPut (cstr k) (xvalue v))) (obj !! p)
  | CGet p k g => option_map (fun h => OCall h (Conc.CGet (cstr k) (get_type g))) (obj !! p)
  | CDelete p k => option_map (fun h => OCall h (Conc.CDel (cstr k))) (obj !! p)
  | CClear p => option_map (fun h => OCall h Conc.CClear) (obj !! p)
  | CClose p => option_map OClose (obj !! p)
  | _ => None
  end.

(** Two calls of which one releases the handle the other works with: the
    [&MMKV] of the one does not outlive the [Box] dropped by the other
    (ffi/mod.rs:219-222, 324-329). *)
Definition conflict (c c' : ccall) : Prop :=
  exists p, through c = Some p /\ through c' = Some p /\ (closing c || closing c') = true.

Section FfiConc.
Context (pick : heap -> ptr) (text : err -> bytes) (E : env).

(** After the store has answered (ffi/mod.rs:227-233, 258-264, 285-292,
    304-306, 325-329, 337, 345-351). *)
Definition xfinish (id : N) (c : ccall) (r : result) (h : heap) (obj : gmap ptr N) : out (heap * gmap ptr N * cret) :=
  match c with
  | CNew _ =>
      match r with
      | ROk _ => let '(p, h') := alloc pick MHandle h in Done (h', <[p := id]> obj, RHandle p)
      | _ => Abort
      end
  | CPut _ _ v => obind (finish pick text (put_fun v) r h) (fun '(p, h') => Done (h', obj, RBuffer p r))
  | CGet _ _ g => obind (finish pick text g r h) (fun '(p, h') => Done (h', obj, RBuffer p r))
  | CDelete _ _ => obind (finish pick text CStr r h) (fun '(p, h') => Done (h', obj, RBuffer p r))
  | CClear _ => match r with ROk _ => Done (h, obj, RUnit) | _ => Abort end
  | CClose p =>
      match r with
      | ROk _ => obind (dealloc p (32, 8) h) (fun h' => Done (h', delete p obj, RUnit))
      | _ => Abort
      end
  | _ => Undef
  end.

Inductive xstep : xstate -> xlabel -> out xstate -> Prop :=
| x_call s id c o f : (* a thread calls *)
    (forall p, through c = Some p -> x_heap s !! p = Some MHandle) ->
    (forall d c', x_calls s !! d = Some c' -> ~ conflict c c') ->
    xtexts c = true -> xop (x_obj s) c = Some o -> fstep E (x_full s) (RInv id o) f ->
    xstep s (XInv id c) (Done (XState f (x_heap s) (x_obj s) (<[id := c]> (x_calls s))))
| x_text s id c : (* to_str().unwrap() *)
    xtexts c = false -> xstep s (XInv id c) Abort
| x_dangling s id c p : (* the pointer is not a handle *)
    through c = Some p -> x_heap s !! p <> Some MHandle -> xstep s (XInv id c) Undef
| x_race s id c d c' : x_calls s !! d = Some c' -> conflict c c' -> xstep s (XInv id c) Undef
| x_tau s f : (* a step of some thread inside the store, or of a background thread *)
    fstep E (x_full s) RTau f -> xstep s XTau (Done (XState f (x_heap s) (x_obj s) (x_calls s)))
| x_ret s id c r f h obj x : (* the store has answered: the call returns *)
    x_calls s !! id = Some c -> fstep E (x_full s) (RRet id r) f -> xfinish id c r (x_heap s) (x_obj s) = Done (h, obj, x) ->
    xstep s (XRet id x r) (Done (XState f h obj (delete id (x_calls s))))
| x_ret_abort s id c x r f : 
    x_calls s !! id = Some c -> fstep E (x_full s) (RRet id r) f -> xfinish id c r (x_heap s) (x_obj s) = Abort ->
    xstep s (XRet id x r) Abort
| x_ret_undef s id c x r f :
    x_calls s !! id = Some c -> fstep E (x_full s) (RRet id r) f -> xfinish id c r (x_heap s) (x_obj s) = Undef ->
    xstep s (XRet id x r) Undef
| x_free s p : (* ffi/mod.rs:318-321 *)
    xstep s (XNow (CFree p)) (obind (free_buffer p (x_heap s)) (fun h => Done (XState (x_full s) h (x_obj s) (x_calls s))))
| x_level s z : (* ffi/mod.rs:313-316 *)
    xstep s (XNow (CLevel z)) (match of_code z with Some _ => Done s | None => Abort end).

End FfiConc.

(** ** The specification *)

(** A correct program: it calls through handles it holds and frees results it
    holds, and closes a handle when no call through it is under way.  [o] is
    what its threads hold together, [fl] the calls under way. *)
Definition permitted (o : held) (fl : gmap N ccall) (a : xlabel) : Prop :=
  match a with
  | XInv _ c => allowed o c /\ forall p, c = CClose p -> forall d c', fl !! d = Some c' -> through c' <> Some p
  | XNow c => allowed o c
  | XTau | XRet _ _ _ => True
  end.

(** A handle is given away when closing it begins; a pointer returned is held. *)
Definition held_after (o : held) (fl : gmap N ccall) (a : xlabel) : held :=
  match a with
  | XInv _ (CClose p) => delete p o
  | XRet id x _ =>
      match fl !! id, x with
      | Some _, RHandle p => <[p := HHandle]> o
      | Some c, RBuffer p r => <[p := HResult (fun_of c) r]> o
      | _, _ => o
      end
  | XNow (CFree p) => delete p o
  | _ => o
  end.

Definition flight_after (fl : gmap N ccall) (a : xlabel) : gmap N ccall :=
  match a with XInv id c => <[id := c]> fl | XRet id _ _ => delete id fl | _ => fl end.

(** Executions of a correct program: what happened, the state, what is held
    and what is under way. *)
Inductive xexec (pick : heap -> ptr) (text : err -> bytes) (E : env) : list xlabel -> xstate -> held -> gmap N ccall -> Prop :=
| xx_nil : xexec pick text E [] xstate0 ∅ ∅
| xx_snoc tr s o fl a s' :
    xexec pick text E tr s o fl -> permitted o fl a -> xstep pick text E s a (Done s') ->
    xexec pick text E (tr ++ [a]) s' (held_after o fl a) (flight_after fl a).

(** The history of the store: the calls in terms of handles named after the
    calls that opened them, instead of addresses. *)
Definition op_of (nm : gmap ptr N) (c : ccall) : rop :=
  let h p := default 0 (nm !! p) in
  match c with
  | CNew d => OOpen (cstr d) []
  | CPut p k v => OCall (h p) (Conc.CPut (cstr k) (cvalue v))
  | CGet p k g => OCall (h p) (Conc.CGet (cstr k) (c_type g))
  | CDelete p k => OCall (h p) (Conc.CDel (cstr k))
  | CClear p => OCall (h p) Conc.CClear
  | CClose p => OClose (h p)
  | _ => OOpen [] []
  end.

Fixpoint history (nm : gmap ptr N) (tr : list xlabel) : list rlabel :=
  match tr with
  | [] => []
  | XInv id c :: tr => RInv id (op_of nm c) :: history nm tr
  | XRet id x r :: tr => RRet id r :: history (match x with RHandle p => <[p := id]> nm | _ => nm end) tr
  | _ :: tr => history nm tr
  end.
