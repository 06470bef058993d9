(** The C interface: src/ffi/mod.rs and src/ffi/ffi_buffer.rs, with the
    [Drop] implementations generated by proc_macro_lib/src/lib.rs:8-24, on top
    of the store of World.v and an explicit heap.

    The heap is a finite map from addresses to blocks; a block's layout (size
    and alignment) is determined by its content, and releasing a block with
    another layout, or one that is not live, is undefined behaviour.  Which
    address an allocation gets is up to an arbitrary allocator, which may
    reuse released addresses.  Numbers and array elements are kept as values
    instead of bytes in native order.  The feature "encryption" is off (the
    module is compiled without it, lib.rs) and pointers have 8 bytes.

    Not modelled: allocations that are made and released inside one call (log
    strings, the key), the shrinking of a vector by [into_boxed_slice], the
    store's own memory. *)
From Verif Require Import Bytes Utf8 Proto Value Codec Store Encrypt World Logging.
From Coq Require Import ZArith.
Local Open Scope N_scope.

(** [Types] (ffi/mod.rs:18-33). *)
Inductive ctype := CI32 | CStr | CBool | CI64 | CF32 | CF64 | CBytes | CI32s | CI64s | CF32s | CF64s.

Global Instance ctype_eq_dec : EqDecision ctype.
Proof. solve_decision. Defined.

(** What a call can do: return, abort the process (a panic in an extern "C"
    function), or have undefined behaviour. *)
Inductive out (A : Type) := Done (a : A) | Abort | Undef.
Arguments Done {A} a. Arguments Abort {A}. Arguments Undef {A}.

Definition obind {A B} (o : out A) (f : A -> out B) : out B :=
  match o with Done a => f a | Abort => Abort | Undef => Undef end.

(** ** Memory *)

(** Addresses; 0 is null. *)
Notation ptr := N.

(** The blocks: a number or boolean; the elements of a boxed str or slice
    (as a value); [ByteSlice], [RawTypedArray], [RawBuffer], [InternalError]
    (ffi/mod.rs:35-48, 99-113); a boxed [MMKV] (mmkv.rs:36-41). *)
Inductive cell :=
| MScalar (v : value) | MElems (v : value)
| MSlice (b : ptr) (n : N) | MArray (a : ptr) (tok : ctype) (n : N)
| MBuffer (data : ptr) (tok : ctype) (e : ptr) | MError (code : Z) (reason : ptr)
| MHandle.

Notation heap := (gmap ptr cell).

(** Number of elements and size of an element. *)
Definition count (v : value) : N :=
  match v with
  | VStr s | VBytes s => len s
  | VI32s l | VI64s l => N.of_nat (length l)
  | VF32s l | VF64s l => N.of_nat (length l)
  | _ => 1
  end.

Definition width (v : value) : N :=
  match v with
  | VStr _ | VBytes _ | VBool _ => 1
  | VI32 _ | VF32 _ | VI32s _ | VF32s _ => 4
  | _ => 8
  end.

(** Size and alignment. *)
Definition layout (c : cell) : N * N :=
  match c with
  | MScalar v => (width v, width v)
  | MElems v => (count v * width v, width v)
  | MSlice _ _ => (16, 8) | MArray _ _ _ => (24, 8) | MBuffer _ _ _ => (24, 8) | MError _ _ => (16, 8)
  | MHandle => (32, 8)
  end.

(** Releasing a block; an empty one is not an allocation at all. *)
Definition dealloc (p : ptr) (l : N * N) (h : heap) : out heap :=
  if l.1 =? 0 then Done h
  else match h !! p with
       | Some c => if decide (layout c = l) then Done (delete p h) else Undef
       | None => Undef
       end.

Section Ffi.
(** The allocator. *)
Context (pick : heap -> ptr).
(** The texts inside the errors that carry one (lib.rs:22, 27). *)
Context (text : err -> bytes).

(** Allocation; an empty block gets a dangling aligned address. *)
Definition alloc (c : cell) (h : heap) : ptr * heap :=
  if (layout c).1 =? 0 then ((layout c).2, h) else (pick h, <[pick h := c]> h).

(** [ByteSlice::new(s).leak()] (ffi_buffer.rs:71-79, 16-28). *)
Definition leak_slice (s : bytes) (h : heap) : ptr * heap :=
  let '(b, h1) := alloc (MElems (VStr s)) h in
  alloc (MSlice b (len s)) h1.

(** [RawTypedArray::new(v, tok).leak()] (ffi_buffer.rs:89-103, 16-28). *)
Definition leak_array (v : value) (tok : ctype) (h : heap) : ptr * heap :=
  let '(a, h1) := alloc (MElems v) h in
  alloc (MArray a tok (count v)) h1.

(** The table of impl_get! and mmkv_get! (ffi/mod.rs:153-198, 363-375): the
    type asked of the store, the token of the buffer and the token of the
    array, for every getter (named by its token). *)
Definition get_type (g : ctype) : ty :=
  match g with
  | CI32 => TI32 | CStr => TStr | CBool => TBool | CI64 => TI64 | CF32 => TF32 | CF64 => TF64
  | CBytes => TBytes | CI32s => TI32s | CI64s => TI64s | CF32s => TF32s | CF64s => TF64s
  end.
Definition get_token (g : ctype) : ctype := g.
Definition array_token (g : ctype) : ctype := g.

(** The conversion in mmkv_get! with [RawBuffer::set_data] (ffi_buffer.rs:136-141). *)
Definition leak_data (g : ctype) (v : value) (h : heap) : out (ptr * heap) :=
  match v with
  | VI32 _ | VBool _ | VI64 _ | VF32 _ | VF64 _ => Done (alloc (MScalar v) h)
  | VStr s => Done (leak_slice s h)
  | VBytes _ | VI32s _ | VI64s _ | VF32s _ | VF64s _ => Done (leak_array v (array_token g) h)
  | VUser _ _ => Undef
  end.

(** [InternalError::new] (ffi_buffer.rs:182-198). *)
Definition error_new (code : Z) (reason : option bytes) (h : heap) : cell * heap :=
  match reason with
  | None => (MError code 0, h)
  | Some s => let '(p, h1) := leak_slice s h in (MError code p, h1)
  end.

(** [map_error] with [TryFrom<Error>] (ffi/mod.rs:201-208, ffi_buffer.rs:200-214). *)
Definition map_error (e : err) (h : heap) : out (cell * heap) :=
  match e with
  | KeyNotFound => Done (error_new 0 None h)
  | DecodeFailed => Done (error_new 1 (Some (text e)) h)
  | TypeMissMatch => Done (error_new 2 None h)
  | DataInvalid => Done (error_new 3 None h)
  | InstanceClosed => Done (error_new 4 None h)
  | EncodeFailed => Done (error_new 5 (Some (text e)) h)
  | _ => Abort
  end.

(** The body of impl_put!, impl_put_typed_array!, impl_get! and [delete]
    after the store has answered (ffi/mod.rs:227-233, 258-264, 285-292,
    347-351; ffi_buffer.rs:128-134, 161-163). *)
Definition finish (g : ctype) (r : result) (h : heap) : out (ptr * heap) :=
  match r with
  | ROk None => Done (alloc (MBuffer 0 (get_token g) 0) h)
  | ROk (Some v) => obind (leak_data g v h) (fun '(d, h1) => Done (alloc (MBuffer d (get_token g) 0) h1))
  | RErr e => obind (map_error e h) (fun '(c, h1) =>
                let '(p, h2) := alloc c h1 in Done (alloc (MBuffer 0 (get_token g) p) h2))
  | RPanic => Abort
  end.

(** ** Releasing *)

(** Dropping a [Box<ByteSlice>] (ffi_buffer.rs:30-43, 81-87; the [Drop] of the
    content runs first, then the box is released). *)
Definition free_slice (p : ptr) (h : heap) : out heap :=
  match h !! p with
  | Some (MSlice b n) => obind (dealloc b (n, 1) h) (dealloc p (16, 8))
  | _ => Undef
  end.

(** The element sizes of [RawTypedArray::release] (ffi_buffer.rs:105-125). *)
Definition elem_width (tok : ctype) : option N :=
  match tok with
  | CBytes => Some 1 | CI32s => Some 4 | CI64s => Some 8 | CF32s => Some 4 | CF64s => Some 8
  | _ => None
  end.

(** Dropping a [Box<RawTypedArray>]. *)
Definition free_array (p : ptr) (h : heap) : out heap :=
  match h !! p with
  | Some (MArray a tok n) =>
      match elem_width tok with
      | Some w => obind (dealloc a (n * w, w) h) (dealloc p (24, 8))
      | None => Abort
      end
  | _ => Undef
  end.

(** Dropping a [Box] of a number or boolean of [w] bytes. *)
Definition free_scalar (w : N) (p : ptr) (h : heap) : out heap := dealloc p (w, w) h.

(** [RawBuffer::drop_data] (ffi_buffer.rs:143-163). *)
Definition drop_data (data : ptr) (tok : ctype) (h : heap) : out heap :=
  if data =? 0 then Done h
  else match tok with
       | CI32 => free_scalar 4 data h
       | CStr => free_slice data h
       | CBool => free_scalar 1 data h
       | CI64 => free_scalar 8 data h
       | CF32 => free_scalar 4 data h
       | CF64 => free_scalar 8 data h
       | CBytes | CI32s | CI64s | CF32s | CF64s => free_array data h
       end.

(** Dropping a [Box<InternalError>] (ffi_buffer.rs:216-231). *)
Definition free_error (p : ptr) (h : heap) : out heap :=
  match h !! p with
  | Some (MError _ reason) =>
      obind (if reason =? 0 then Done h else free_slice reason h) (dealloc p (16, 8))
  | _ => Undef
  end.

(** [free_buffer] (ffi/mod.rs:319-321): dropping a [Box<RawBuffer>]
    (ffi_buffer.rs:165-180). *)
Definition free_buffer (p : ptr) (h : heap) : out heap :=
  match h !! p with
  | Some (MBuffer data tok e) =>
      obind (drop_data data tok h) (fun h1 =>
      obind (if e =? 0 then Done h1 else free_error e h1) (dealloc p (24, 8)))
  | _ => Undef
  end.

(** [NativeLogger::call_target] (ffi/mod.rs:67-72): the line is lent to the
    callback. *)
Definition call_target (s : bytes) (h : heap) : ptr * heap * out heap :=
  let '(p, h1) := leak_slice s h in (p, h1, free_slice p h1).

(** ** Calls *)

(** [CStr::from_ptr(..).to_str().unwrap()] on memory holding [s] followed by
    a zero byte. *)
Fixpoint cstr (s : bytes) : bytes :=
  match s with
  | [] => []
  | b :: r => if decide (b = x00) then [] else b :: cstr r
  end.

Inductive ccall :=
| CNew (dir : bytes)
| CPut (p : ptr) (key : bytes) (v : value)
| CGet (p : ptr) (key : bytes) (g : ctype)
| CDelete (p : ptr) (key : bytes)
| CClear (p : ptr)
| CClose (p : ptr)
| CFree (p : ptr)
| CLevel (z : Z)
| CIo (i : N).                 (* not a call: the background thread works *)

(** What a call returns: nothing, a handle, or a result buffer (with the
    answer of the store it was made for, which is not part of the program). *)
Inductive cret := RUnit | RHandle (p : ptr) | RBuffer (p : ptr) (r : result).

(** The put_* function a value is passed to (ffi/mod.rs:354-361, 377-383). *)
Definition put_fun (v : value) : ctype :=
  match v with
  | VI32 _ => CI32 | VStr _ => CStr | VBool _ => CBool | VI64 _ => CI64 | VF32 _ => CF32 | VF64 _ => CF64
  | VBytes _ => CBytes | VI32s _ => CI32s | VI64s _ => CI64s | VF32s _ => CF32s | VF64s _ => CF64s
  | VUser _ _ => CStr
  end.

Record cstate := CState { c_world : world; c_heap : heap; c_level : Z }.

Context (E : env).

Definition arg (s : bytes) {A} (f : bytes -> out A) : out A :=
  if utf8_valid (cstr s) then f (cstr s) else Abort.

(** A call of the store with a result buffer. *)
Definition with_buffer (s : cstate) (g : ctype) (e : event) : out (cstate * cret) :=
  match step E (c_world s) e with
  | None => Undef
  | Some (w, r) => obind (finish g r (c_heap s)) (fun '(p, h) => Done (CState w h (c_level s), RBuffer p r))
  end.

Definition cstep (s : cstate) (c : ccall) : out (cstate * cret) :=
  match c with
  | CNew dir => (* ffi/mod.rs:298-307 *)
      arg dir (fun d =>
        let '(p, h) := alloc MHandle (c_heap s) in
        match step E (c_world s) (ENew p d []) with
        | Some (w, ROk _) => Done (CState w h (c_level s), RHandle p)
        | Some (_, _) => Abort
        | None => Undef
        end)
  | CPut p key v => (* ffi/mod.rs:210-269; a string is a C string, 115-121 *)
      arg key (fun k =>
        match v with
        | VUser _ _ => Undef
        | VStr x => arg x (fun x => with_buffer s CStr (EPut p k (VStr x)))
        | _ => with_buffer s (put_fun v) (EPut p k v)
        end)
  | CGet p key g => arg key (fun k => with_buffer s g (EGet p k (get_type g))) (* ffi/mod.rs:271-296 *)
  | CDelete p key => arg key (fun k => with_buffer s CStr (EDelete p k)) (* ffi/mod.rs:340-352 *)
  | CClear p => (* ffi/mod.rs:332-338 *)
      match step E (c_world s) (EClear p) with
      | Some (w, ROk _) => Done (CState w (c_heap s) (c_level s), RUnit)
      | Some (_, _) => Abort
      | None => Undef
      end
  | CClose p => (* ffi/mod.rs:323-330 *)
      match c_heap s !! p with
      | Some MHandle =>
          match step E (c_world s) (EDrop p) with
          | Some (w, ROk _) => obind (dealloc p (32, 8) (c_heap s)) (fun h => Done (CState w h (c_level s), RUnit))
          | Some (_, _) => Abort
          | None => Undef
          end
      | _ => Undef
      end
  | CFree p => obind (free_buffer p (c_heap s)) (fun h => Done (CState (c_world s) h (c_level s), RUnit))
  | CLevel z => (* ffi/mod.rs:313-316 *)
      match of_code z with
      | Some l => Done (CState (c_world s) (c_heap s) (code l), RUnit)
      | None => Abort
      end
  | CIo i => match step E (c_world s) (EIo i) with
             | Some (w, _) => Done (CState w (c_heap s) (c_level s), RUnit)
             | None => Undef
             end
  end.

Definition cstate0 : cstate := CState world0 ∅ 5.

Fixpoint crun (s : cstate) (cs : list ccall) : out (cstate * list cret) :=
  match cs with
  | [] => Done (s, [])
  | c :: r => obind (cstep s c) (fun '(s1, x) => obind (crun s1 r) (fun '(s2, xs) => Done (s2, x :: xs)))
  end.

End Ffi.

(** ** The specification *)

(** What a caller sees in a result: nothing, a value, or an error code with
    an optional text. *)
Inductive seen := SNothing | SValue (v : value) | SError (code : Z) (reason : option bytes).

(** The documented error codes (ios/MMKV/Sources/MMKV/MMKVError.swift:11-17). *)
Definition documented (e : err) : option Z :=
  match e with
  | KeyNotFound => Some 0 | DecodeFailed => Some 1 | TypeMissMatch => Some 2
  | DataInvalid => Some 3 | InstanceClosed => Some 4 | EncodeFailed => Some 5
  | _ => None
  end%Z.

(** The errors that carry a text. *)
Definition has_text (e : err) : bool := match e with DecodeFailed | EncodeFailed => true | _ => false end.

(** What a caller should see for an answer of the store. *)
Definition expected (text : err -> bytes) (r : result) : option seen :=
  match r with
  | ROk None => Some SNothing
  | ROk (Some v) => Some (SValue v)
  | RErr e => option_map (fun c => SError c (if has_text e then Some (text e) else None)) (documented e)
  | RPanic => None
  end.

(** What the getters and setters are documented to handle, by the C type
    their names carry ([get_i32] an [i32], ...): the tokens as the user reads
    them, independent of the tables of the library above. *)
Definition c_type (g : ctype) : ty :=
  match g with
  | CI32 => TI32 | CStr => TStr | CBool => TBool | CI64 => TI64 | CF32 => TF32 | CF64 => TF64
  | CBytes => TBytes | CI32s => TI32s | CI64s => TI64s | CF32s => TF32s | CF64s => TF64s
  end.

Definition c_fun (v : value) : ctype :=
  match v with
  | VBool _ => CBool | VI32 _ => CI32 | VI64 _ => CI64 | VF32 _ => CF32 | VF64 _ => CF64 | VStr _ => CStr
  | VBytes _ => CBytes | VI32s _ => CI32s | VI64s _ => CI64s | VF32s _ => CF32s | VF64s _ => CF64s
  | VUser _ _ => CStr
  end.

(** Reading a result the way a C program does: the error first, then the data
    according to the token the caller knows, never past the end of a block. *)
Definition read_str (h : heap) (b : ptr) (n : N) : option bytes :=
  if n =? 0 then Some []
  else match h !! b with
       | Some (MElems (VStr s)) => if len s =? n then Some s else None
       | _ => None
       end.

Definition read_slice (h : heap) (p : ptr) : option bytes :=
  match h !! p with Some (MSlice b n) => read_str h b n | _ => None end.

Definition no_elems (t : ctype) : option value :=
  match t with
  | CBytes => Some (VBytes []) | CI32s => Some (VI32s []) | CI64s => Some (VI64s [])
  | CF32s => Some (VF32s []) | CF64s => Some (VF64s []) | _ => None
  end.

Definition read_array (h : heap) (t : ctype) (p : ptr) : option value :=
  match h !! p with
  | Some (MArray a t' n) =>
      if negb (bool_decide (t = t')) then None
      else if n =? 0 then no_elems t
      else match h !! a with
           | Some (MElems v) => if bool_decide (type_of v = c_type t) && (count v =? n) then Some v else None
           | _ => None
           end
  | _ => None
  end.

Definition read_data (h : heap) (t : ctype) (p : ptr) : option value :=
  match t with
  | CI32 | CBool | CI64 | CF32 | CF64 =>
      match h !! p with
      | Some (MScalar v) => if bool_decide (type_of v = c_type t) then Some v else None
      | _ => None
      end
  | CStr => option_map VStr (read_slice h p)
  | _ => read_array h t p
  end.

Definition read_result (h : heap) (t : ctype) (p : ptr) : option seen :=
  match h !! p with
  | Some (MBuffer data t' e) =>
      if negb (bool_decide (t = t')) then None
      else if negb (e =? 0) then
        match h !! e with
        | Some (MError c 0) => Some (SError c None)
        | Some (MError c q) => option_map (fun s => SError c (Some s)) (read_slice h q)
        | _ => None
        end
      else if data =? 0 then Some SNothing
      else option_map SValue (read_data h t data)
  | _ => None
  end.

(** The pointers a correct caller holds: handles, and results with the
    function that made them and the answer they stand for. *)
Inductive holds := HHandle | HResult (t : ctype) (r : result).

Notation held := (gmap ptr holds).

Definition fun_of (c : ccall) : ctype := match c with CPut _ _ v => c_fun v | CGet _ _ g => g | _ => CStr end.

(** What the caller holds after a call that returned. *)
Definition after (o : held) (c : ccall) (x : cret) : held :=
  match c, x with
  | (CClose p | CFree p), _ => delete p o
  | _, RHandle p => <[p := HHandle]> o
  | _, RBuffer p r => <[p := HResult (fun_of c) r]> o
  | _, RUnit => o
  end.

(** The calls a correct caller makes: through handles it holds, freeing
    results it holds; values are the caller's and so in range. *)
Definition allowed (o : held) (c : ccall) : Prop :=
  match c with
  | CNew _ | CLevel _ | CIo _ => True
  | CPut p _ v => o !! p = Some HHandle /\ (forall t s, v <> VUser t s)
  | CGet p _ _ | CDelete p _ | CClear p | CClose p => o !! p = Some HHandle
  | CFree p => exists t r, o !! p = Some (HResult t r)
  end.

(** The call of the store a C call stands for: strings end at their first
    zero byte. *)
Definition cvalue (v : value) : value := match v with VStr x => VStr (cstr x) | _ => v end.

Definition events_of (c : ccall) (x : cret) : list event :=
  match c with
  | CNew dir => match x with RHandle p => [ENew p (cstr dir) []] | _ => [] end
  | CPut p key v => [EPut p (cstr key) (cvalue v)]
  | CGet p key g => [EGet p (cstr key) (c_type g)]
  | CDelete p key => [EDelete p (cstr key)]
  | CClear p => [EClear p]
  | CClose p => [EDrop p]
  | CIo i => [EIo i]
  | CFree _ | CLevel _ => []
  end.

Definition events (cs : list (ccall * cret)) : list event := flat_map (fun cx => events_of cx.1 cx.2) cs.

(** The texts passed are UTF-8. *)
Definition texts_ok (c : ccall) : Prop :=
  match c with
  | CNew s | CGet _ s _ | CDelete _ s => utf8_valid (cstr s) = true
  | CPut _ s v => utf8_valid (cstr s) = true /\ match v with VStr x => utf8_valid (cstr x) = true | _ => True end
  | _ => True
  end.

(** Executions by a correct caller: the calls made with what they returned,
    the state and what the caller holds.  A call that aborts ends the process. *)
Inductive cexec (pick : heap -> ptr) (text : err -> bytes) (E : env) : list (ccall * cret) -> cstate -> held -> Prop :=
| cx_nil : cexec pick text E [] cstate0 ∅
| cx_snoc cs s o c s' x :
    cexec pick text E cs s o -> allowed o c -> cstep pick text E s c = Done (s', x) ->
    cexec pick text E (cs ++ [(c, x)]) s' (after o c x).
