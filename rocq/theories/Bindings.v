(** The Swift and Kotlin wrappers: ios/MMKV/Sources/MMKV/*.swift on top of the
    C interface (Ffi.v) and src/jni/mod.rs with
    android/library/src/main/java/net/yangkx/mmkv/MMKV.kt (the encrypted
    library has the same file but for the key) on top of the store (World.v).

    Not modelled: the JVM's and Swift's own memory, Swift's dispatch of log
    lines to the main queue, the Java classes found by name. *)
From Verif Require Import Bytes Utf8 Proto Value Codec Store Encrypt World Logging Ffi.
From Coq Require Import ZArith.
Local Open Scope N_scope.

(** ** Swift *)

(** A [Result<T, MMKVError>]: success without a value is [Void]. *)
Inductive swift := Success (v : option value) | Failure (code : Z) (reason : option bytes).

(** [ByteSlice.asString] (FFI.swift:5-12): nil unless UTF-8. *)
Definition swift_string (h : heap) (p : ptr) : out (option bytes) :=
  match h !! p with
  | Some (MSlice b n) =>
      match read_str h b n with
      | Some s => Done (if utf8_valid s then Some s else None)
      | None => Undef
      end
  | _ => Undef
  end.

(** [readArray] (FFI.swift:21-31): the loop runs over [0...count - 1], a range
    that traps when [count] is 0. *)
Definition swift_array (h : heap) (t : ctype) (p : ptr) : out value :=
  match h !! p with
  | Some (MArray a _ n) =>
      if n =? 0 then Abort
      else match h !! a with
           | Some (MElems v) => if bool_decide (type_of v = c_type t) && (count v =? n) then Done v else Undef
           | _ => Undef
           end
  | _ => Undef
  end.

(** The switch over the token (ResultWrapper.swift:31-57). *)
Definition swift_data (h : heap) (tok : ctype) (p : ptr) : out value :=
  match tok with
  | CI32 | CBool | CI64 | CF32 | CF64 =>
      match h !! p with
      | Some (MScalar v) => if bool_decide (type_of v = c_type tok) then Done v else Undef
      | _ => Undef
      end
  | CStr => obind (swift_string h p) (fun o => match o with Some s => Done (VStr s) | None => Abort end)
  | CBytes | CI32s | CI64s | CF32s | CF64s => swift_array h tok p
  end.

(** [unwrapResult] (ResultWrapper.swift:23-59) for a wrapper of type [T]
    ([None] is [Void]); a failing cast traps. *)
Definition unwrap_result (h : heap) (p : ptr) (T : option ctype) : out swift :=
  match h !! p with
  | Some (MBuffer data tok e) =>
      if negb (e =? 0) then
        match h !! e with
        | Some (MError c r) =>
            if r =? 0 then Done (Failure c None) else obind (swift_string h r) (fun o => Done (Failure c o))
        | _ => Undef
        end
      else if data =? 0 then match T with None => Done (Success None) | Some _ => Abort end
      else obind (swift_data h tok data) (fun v =>
             if bool_decide (T = Some tok) then Done (Success (Some v)) else Abort)
  | _ => Undef
  end.

(** The type of the wrapper each method returns (MMKV.swift:78-167). *)
Definition swift_type (c : ccall) : option ctype := match c with CGet _ _ g => Some g | _ => None end.

(** Log levels: [setLogLevel] (MMKV.swift:59-69) and the callback
    (Logger.swift:26-39). *)
Inductive swift_level := SwOff | SwError | SwWarn | SwInfo | SwDebug | SwTrace.
Definition swift_code (l : swift_level) : Z :=
  match l with SwOff => 0 | SwError => 1 | SwWarn => 2 | SwInfo => 3 | SwDebug => 4 | SwTrace => 5 end.
Definition swift_method (z : Z) : swift_level :=
  if (z =? 1)%Z then SwError else if (z =? 2)%Z then SwWarn else if (z =? 3)%Z then SwInfo else if (z =? 4)%Z then SwDebug else SwTrace.
(** The methods of the C logger (ffi/mod.rs:75-97): the level each passes on. *)
Definition native_level (l : level) : Z := code l.

(** ** Kotlin *)

(** Strings of the JVM: UTF-16 code units. *)
Notation jstring := (list N).

Definition high (u : N) : bool := (0xD800 <=? u) && (u <=? 0xDBFF).
Definition low (u : N) : bool := (0xDC00 <=? u) && (u <=? 0xDFFF).

(** The characters of a well-formed string. *)
Fixpoint utf16_decode (u : jstring) : option (list N) :=
  match u with
  | [] => Some []
  | a :: r =>
      if high a then
        match r with
        | b :: r' => if low b then option_map (cons (0x10000 + (a - 0xD800) * 1024 + (b - 0xDC00))) (utf16_decode r') else None
        | [] => None
        end
      else if low a then None
      else option_map (cons a) (utf16_decode r)
  end.

Definition utf16_enc1 (c : N) : jstring :=
  if c <? 0x10000 then [c] else [0xD800 + (c - 0x10000) / 1024; 0xDC00 + (c - 0x10000) mod 1024].
Definition utf16_encode (cs : list N) : jstring := flat_map utf16_enc1 cs.

(** The characters of a UTF-8 string. *)
Fixpoint utf8_decode (l : bytes) : list N :=
  match l with
  | [] => []
  | b0 :: r0 =>
      if b2n b0 <? 0x80 then b2n b0 :: utf8_decode r0
      else match r0 with
      | [] => []
      | b1 :: r1 =>
          if b2n b0 <? 0xE0 then (b2n b0 - 0xC0) * 64 + (b2n b1 - 0x80) :: utf8_decode r1
          else match r1 with
          | [] => []
          | b2 :: r2 =>
              if b2n b0 <? 0xF0 then ((b2n b0 - 0xE0) * 64 + (b2n b1 - 0x80)) * 64 + (b2n b2 - 0x80) :: utf8_decode r2
              else match r2 with
              | [] => []
              | b3 :: r3 => (((b2n b0 - 0xF0) * 64 + (b2n b1 - 0x80)) * 64 + (b2n b2 - 0x80)) * 64 + (b2n b3 - 0x80) :: utf8_decode r3
              end
          end
      end
  end.

(** Kotlin values: bytes are signed, floats are bit patterns. *)
Inductive kvalue :=
| KString (u : jstring) | KInt (z : Z) | KBool (b : bool) | KLong (z : Z) | KFloat (n : N) | KDouble (n : N)
| KBytes (l : list Z) | KInts (l : list Z) | KLongs (l : list Z) | KFloats (l : list N) | KDoubles (l : list N).

(** The functions, named by the type they transport. *)
Inductive kty := KTString | KTInt | KTBool | KTLong | KTFloat | KTDouble | KTBytes | KTInts | KTLongs | KTFloats | KTDoubles.

Definition kty_of (k : kvalue) : kty :=
  match k with
  | KString _ => KTString | KInt _ => KTInt | KBool _ => KTBool | KLong _ => KTLong | KFloat _ => KTFloat | KDouble _ => KTDouble
  | KBytes _ => KTBytes | KInts _ => KTInts | KLongs _ => KTLongs | KFloats _ => KTFloats | KDoubles _ => KTDoubles
  end.

Inductive exn := KeyNotFoundException | NativeException.
(** What a call does: return (a value or nothing), throw, or abort. *)
Inductive kout := KReturn (k : option kvalue) | KThrow (x : exn) | KAbort.

Inductive kcall :=
| KPut (h : N) (key : jstring) (k : kvalue)
| KGet (h : N) (key : jstring) (t : kty)
| KGetOr (h : N) (key : jstring) (t : kty) (d : kvalue)
| KDelete (h : N) (key : jstring)
| KClear (h : N).

(** The store type of every getter (jni/mod.rs:94-143, 322-383). *)
Definition jni_type (t : kty) : ty :=
  match t with
  | KTString => TStr | KTInt => TI32 | KTBool => TBool | KTLong => TI64 | KTFloat => TF32 | KTDouble => TF64
  | KTBytes => TBytes | KTInts => TI32s | KTLongs => TI64s | KTFloats => TF32s | KTDoubles => TF64s
  end.

Section Jni.
(** What the jni crate makes of a string that is not well-formed UTF-16. *)
Context (lossy : jstring -> bytes).

(** [env_str] (jni/mod.rs:23-26), by way of the jni crate: the JVM hands out
    modified UTF-8, which the crate turns into a Rust string. *)
Definition env_str (u : jstring) : bytes :=
  match utf16_decode u with Some cs => utf8_encode cs | None => lossy u end.

(** [env.new_string(value)] (jni/mod.rs:98). *)
Definition new_string (s : bytes) : jstring := utf16_encode (utf8_decode s).

(** jboolean: 0 or 1. *)
Definition jboolean (b : bool) : N := if b then 1 else 0.

(** mmkv_put! (jni/mod.rs:52-92). *)
Definition to_native (k : kvalue) : value :=
  match k with
  | KString u => VStr (env_str u)
  | KInt z => VI32 z
  | KBool b => VBool (jboolean b =? 1)
  | KLong z => VI64 z
  | KFloat n => VF32 n
  | KDouble n => VF64 n
  | KBytes l => VBytes (map (fun z => n2b (z2u 1 z)) l)
  | KInts l => VI32s l | KLongs l => VI64s l | KFloats l => VF32s l | KDoubles l => VF64s l
  end.

(** mmkv_get! (jni/mod.rs:94-143); the JVM reads a jboolean as "not 0". *)
Definition from_native (v : value) : option kvalue :=
  match v with
  | VStr s => Some (KString (new_string s))
  | VI32 z => Some (KInt z)
  | VBool b => Some (KBool (negb ((if b then 1 else 0) =? 0)))
  | VI64 z => Some (KLong z)
  | VF32 n => Some (KFloat n)
  | VF64 n => Some (KDouble n)
  | VBytes s => Some (KBytes (map (fun b => u2z 1 (b2n b)) s))
  | VI32s l => Some (KInts l) | VI64s l => Some (KLongs l) | VF32s l => Some (KFloats l) | VF64s l => Some (KDoubles l)
  | VUser _ _ => None
  end.

Context (E : env).

(** impl_java_get! (jni/mod.rs:179-209): every error becomes the same exception. *)
Definition jni_get (r : result) : kout :=
  match r with
  | ROk (Some v) => match from_native v with Some k => KReturn (Some k) | None => KAbort end
  | ROk None => KAbort
  | RErr _ => KThrow KeyNotFoundException
  | RPanic => KAbort
  end.

Definition kstep (w : world) (c : kcall) : option (world * kout) :=
  match c with
  | KPut h key k => (* impl_java_put! (jni/mod.rs:145-177) *)
      match step E w (EPut h (env_str key) (to_native k)) with
      | Some (w', r) => Some (w', match r with ROk _ => KReturn None | RErr _ => KThrow NativeException | RPanic => KAbort end)
      | None => None
      end
  | KGet h key t =>
      match step E w (EGet h (env_str key) (jni_type t)) with
      | Some (w', r) => Some (w', jni_get r)
      | None => None
      end
  | KGetOr h key t d => (* MMKV.kt:61-67 and the like *)
      match step E w (EGet h (env_str key) (jni_type t)) with
      | Some (w', r) => Some (w', match jni_get r with KThrow KeyNotFoundException => KReturn (Some d) | o => o end)
      | None => None
      end
  | KDelete h key => (* jni/mod.rs:385-406 *)
      match step E w (EDelete h (env_str key)) with
      | Some (w', r) => Some (w', match r with ROk _ => KReturn None | RErr _ => KThrow KeyNotFoundException | RPanic => KAbort end)
      | None => None
      end
  | KClear h => (* jni/mod.rs:426-434 *)
      match step E w (EClear h) with
      | Some (w', r) => Some (w', match r with ROk _ => KReturn None | _ => KAbort end)
      | None => None
      end
  end.
End Jni.

(** Log levels: the ordinals of [LogLevel] (Logger.kt:18-25, MMKV.kt:43-45)
    and the Java methods of [AndroidLogger] (jni/mod.rs:249-269). *)
Inductive kotlin_level := KlClose | KlError | KlWarn | KlInfo | KlDebug | KlVerbose.
Definition ordinal (l : kotlin_level) : Z :=
  match l with KlClose => 0 | KlError => 1 | KlWarn => 2 | KlInfo => 3 | KlDebug => 4 | KlVerbose => 5 end.

(** [setLogLevel] (jni/mod.rs:408-424): the level set, or an exception. *)
Definition jni_set_level (z : Z) : level + exn :=
  match of_code z with Some l => inl l | None => inr NativeException end.

(** ** Log lines on Android *)

(** [AndroidLogger]'s methods (jni/mod.rs:249-269) with [redirect]
    (log/logger.rs:28-38): the Java method a line of a level is given to. *)
Definition java_method (l : level) : option kotlin_level :=
  match l with
  | Off => None | Error => Some KlError | Warn => Some KlWarn | Info => Some KlInfo | Debug => Some KlDebug | Verbose => Some KlVerbose
  end.

(** A local reference of the JVM: to the class of the wrapper or to the string
    made for a line.  What it refers to cannot be collected. *)
Inductive jref := RfClass | RfLine (u : jstring).

(** The log thread's table of local references holds at most [cap] of them (512
    on Android before 8.0); the JVM ends the process when it overflows.  A
    native method's references are released when it returns to Java; the log
    thread is attached for good (jni/mod.rs:230) and never returns to Java, and
    the jni crate (0.21) releases a [JObject] or [JString] only on request. *)
Definition new_local (cap : N) (r : jref) (t : list jref) : option (list jref) :=
  if N.of_nat (length t) <? cap then Some (t ++ [r]) else None.

(** [AndroidLogger::call_java] (jni/mod.rs:229-246): a local reference to the
    class, one to the line, the call.  (A Java logger that throws makes it
    panic: that is [panics] of Logging.v.) *)
Definition call_java (cap : N) (m : kotlin_level) (s : bytes) (t : list jref) : option (list jref * (kotlin_level * jstring)) :=
  match new_local cap RfClass t with
  | Some t1 =>
      match new_local cap (RfLine (new_string s)) t1 with
      | Some t2 => Some (t2, (m, new_string s))
      | None => None
      end
  | None => None
  end.

(** The log thread at work: what is left in its table and what the Java logger
    has been given, or [None] if the process has ended. *)
Fixpoint java_lines (cap : N) (ls : list (level * bytes)) (t : list jref) : option (list jref * list (kotlin_level * jstring)) :=
  match ls with
  | [] => Some (t, [])
  | (l, s) :: r =>
      match java_method l with
      | None => java_lines cap r t
      | Some m =>
          match call_java cap m s t with
          | Some (t1, d) => option_map (fun '(t2, ds) => (t2, d :: ds)) (java_lines cap r t1)
          | None => None
          end
      end
  end.

(** The same on the C side: every line lent to the callback (ffi/mod.rs:67-97)
    as the list of what it could read, and the heap left behind. *)
Fixpoint c_lines (pick : heap -> ptr) (ls : list (level * bytes)) (h : heap) : out (heap * list (Z * option bytes)) :=
  match ls with
  | [] => Done (h, [])
  | (l, s) :: r =>
      let '(p, h1, o) := call_target pick s h in
      obind o (fun h2 => obind (c_lines pick r h2) (fun '(h3, ds) => Done (h3, (native_level l, read_slice h1 p) :: ds)))
  end.

(** ** The specification *)

(** A JVM string: 16-bit units; well-formed if surrogates come in pairs. *)
Definition units (u : jstring) : Prop := Forall (fun x => x < 2 ^ 16) u.

Inductive well_formed : jstring -> Prop :=
| wf_nil : well_formed []
| wf_plain x u : x < 2 ^ 16 -> ~ (0xD800 <= x <= 0xDFFF) -> well_formed u -> well_formed (x :: u)
| wf_pair x y u : 0xD800 <= x <= 0xDBFF -> 0xDC00 <= y <= 0xDFFF -> well_formed u -> well_formed (x :: y :: u).

(** Values of Kotlin. *)
Definition kvalue_ok (k : kvalue) : Prop :=
  match k with
  | KString u => units u
  | KInt z => (- 2 ^ 31 <= z < 2 ^ 31)%Z
  | KLong z => (- 2 ^ 63 <= z < 2 ^ 63)%Z
  | KBool _ => True
  | KFloat n => n < 2 ^ 32
  | KDouble n => n < 2 ^ 64
  | KBytes l => Forall (fun z => (- 128 <= z <= 127)%Z) l
  | KInts l => Forall (fun z => (- 2 ^ 31 <= z < 2 ^ 31)%Z) l
  | KLongs l => Forall (fun z => (- 2 ^ 63 <= z < 2 ^ 63)%Z) l
  | KFloats l => Forall (fun n => n < 2 ^ 32) l
  | KDoubles l => Forall (fun n => n < 2 ^ 64) l
  end.

Definition text_ok (k : kvalue) : Prop := match k with KString u => well_formed u | _ => True end.
