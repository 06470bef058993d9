(** C73, C74: the text of the log lines.

    The lines written by the C interface (src/ffi/mod.rs, src/ffi/ffi_buffer.rs)
    and by the JNI interface (src/jni/mod.rs), and the form in which a line is
    printed when no logger is installed (src/log/logger.rs:19-26, 50-61).

    How Rust formats floating point numbers and addresses with [{:?}], and the
    formatted errors, are parameters.  The lines of the store itself, which
    show counts, sizes, times and reasons of decoding errors, are not here. *)
From Coq Require Import String ZArith DecimalString.
From Verif Require Import Bytes Utf8 Proto Value Codec Store Encrypt World Logging Ffi.
Local Open Scope N_scope.
Local Notation "$ s" := (str s%string) (at level 9, s at level 0, only parsing).

(** [{:?}] of floats, addresses and [Error]. *)
Record fmt := Fmt { f_f32 : N -> bytes; f_f64 : N -> bytes; f_ptr : ptr -> bytes; f_err : err -> bytes }.

(** [{:?}] of an integer: its decimal digits. *)
Definition f_int (z : Z) : bytes := str (NilZero.string_of_int (Z.to_int z)).
Definition f_nat (n : N) : bytes := f_int (Z.of_N n).
Definition f_bool (b : bool) : bytes := if b then $"true" else $"false".

(** [{:?}] of a slice. *)
Fixpoint commas (l : list bytes) : bytes :=
  match l with [] => [] | [x] => x | x :: r => x ++ $", " ++ commas r end.
Definition f_list (l : list bytes) : bytes := $"[" ++ commas l ++ $"]".

Section Lines.
Context (F : fmt).

(** [{:?}] of a value: what Rust prints for a number, a boolean, a slice; the
    library formats no text and no user value. *)
Definition f_value (v : value) : bytes :=
  match v with
  | VI32 z | VI64 z => f_int z
  | VBool b => f_bool b
  | VF32 x => f_f32 F x
  | VF64 x => f_f64 F x
  | VBytes s => f_list (map (fun b => f_nat (b2n b)) s)
  | VI32s l | VI64s l => f_list (map f_int l)
  | VF32s l => f_list (map (f_f32 F) l)
  | VF64s l => f_list (map (f_f64 F) l)
  | VStr _ | VUser _ _ => []
  end.

(** [{:?}] of [Types] (ffi/mod.rs:18-33). *)
Definition f_type (t : ctype) : bytes :=
  match t with
  | CI32 => $"I32" | CStr => $"Str" | CBool => $"Bool" | CI64 => $"I64" | CF32 => $"F32" | CF64 => $"F64"
  | CBytes => $"ByteArray" | CI32s => $"I32Array" | CI64s => $"I64Array" | CF32s => $"F32Array" | CF64s => $"F64Array"
  end.

(** [{:?}] of the structures (ffi/mod.rs:35-48, 99-113). *)
Definition f_cell (c : cell) : bytes :=
  match c with
  | MScalar v | MElems v => f_value v
  | MSlice b n => $"ByteSlice { bytes: " ++ f_ptr F b ++ $", len: " ++ f_nat n ++ $" }"
  | MArray a tok n => $"RawTypedArray { array: " ++ f_ptr F a ++ $", type_token: " ++ f_type tok ++ $", len: " ++ f_nat n ++ $" }"
  | MBuffer d tok e => $"RawBuffer { raw_data: " ++ f_ptr F d ++ $", type_token: " ++ f_type tok ++ $", err: " ++ f_ptr F e ++ $" }"
  | MError code r => $"InternalError { code: " ++ f_int code ++ $", reason: " ++ f_ptr F r ++ $" }"
  | MHandle => []
  end.

(** A line: the tag and the content (logger.rs:54); [LOG_TAG] of ffi/mod.rs:10. *)
Definition tagged (tag content : bytes) : line := $"[" ++ tag ++ $"] " ++ content.
Definition ffi (content : bytes) : line := tagged $"MMKV:FFI" content.

(** ffi_buffer.rs:24, 94, 193; 39, 52, 220. *)
Definition leak_line (c : cell) (p : ptr) : level * line := (Verbose, ffi ($"leak " ++ f_cell c ++ $", ptr: " ++ f_ptr F p)).
Definition release_line (c : cell) (p : ptr) : level * line := (Verbose, ffi ($"release " ++ f_cell c ++ $", ptr: " ++ f_ptr F p)).

(** The literals of impl_put!, impl_put_typed_array!, impl_get! (ffi/mod.rs:354-383). *)
Definition kind (t : ctype) : bytes :=
  match t with
  | CStr => $"string" | CBool => $"bool" | CI32 => $"i32" | CI64 => $"i64" | CF32 => $"f32" | CF64 => $"f64"
  | CBytes => $"byte array" | CI32s => $"i32 array" | CI64s => $"i64 array" | CF32s => $"f32 array" | CF64s => $"f64 array"
  end.

(** ffi/mod.rs:231, 262, 288, 349; 201-206. *)
Definition success_line (log key : bytes) : level * line := (Verbose, ffi (log ++ $" for key '" ++ key ++ $"' success")).
Definition deleted_line (key : bytes) : level * line := (Verbose, ffi ($"delete key " ++ key ++ $" success")).
Definition failed_line (log key : bytes) (e : err) : level * line :=
  (Error, ffi ($"failed to " ++ log ++ $" for key " ++ key ++ $", reason " ++ f_err F e)).

Context (pick : heap -> ptr) (text : err -> bytes).

(** The lines of the conversion in mmkv_get! (ffi/mod.rs:173-197,
    ffi_buffer.rs:94), written before the success line. *)
Definition convert_lines (v : value) (h : heap) : list (level * line) :=
  match v with
  | VBytes _ | VI32s _ | VI64s _ | VF32s _ | VF64s _ => [leak_line (MElems v) (alloc pick (MElems v) h).1]
  | _ => []
  end.

(** The lines of [set_data] (ffi_buffer.rs:136-141, 20-27): none for a [ByteSlice]. *)
Definition data_lines (g : ctype) (v : value) (h : heap) : list (level * line) :=
  match v with
  | VI32 _ | VBool _ | VI64 _ | VF32 _ | VF64 _ => [leak_line (MScalar v) (alloc pick (MScalar v) h).1]
  | VBytes _ | VI32s _ | VI64s _ | VF32s _ | VF64s _ =>
      let '(a, h1) := alloc pick (MElems v) h in
      let c := MArray a (array_token g) (count v) in [leak_line c (alloc pick c h1).1]
  | VStr _ | VUser _ _ => []
  end.

(** The lines of [map_error] after the first (ffi_buffer.rs:182-198), and of
    [set_error] (ffi_buffer.rs:165-167, 20-27). *)
Definition error_lines (e : err) (h : heap) : list (level * line) :=
  match map_error pick text e h with
  | Done (c, h1) =>
      match c with
      | MError _ 0 => []
      | MError _ p => match h1 !! p with Some sl => [leak_line sl p] | None => [] end
      | _ => []
      end ++ [leak_line c (alloc pick c h1).1]
  | _ => []
  end.

(** The line of [result.leak()]. *)
Definition buffer_line (p : ptr) (h : heap) : list (level * line) :=
  match h !! p with Some c => [leak_line c p] | None => [] end.

(** The lines of a put, get or delete after the store has answered [r]
    (ffi/mod.rs:227-233, 258-264, 285-292, 347-351). *)
Definition finish_lines (log key : bytes) (ok : level * line) (g : ctype) (r : result) (h : heap) : list (level * line) :=
  match r with
  | ROk (Some v) => convert_lines v h ++ [ok] ++ data_lines g v h
  | ROk None => [ok]
  | RErr e => [failed_line log key e] ++ error_lines e h
  | RPanic => []
  end ++ match finish pick text g r h with Done (p, h1) => buffer_line p h1 | _ => [] end.

(** The lines of [free_buffer] (ffi_buffer.rs:30-43, 45-55, 143-180, 216-231). *)
Definition free_data_lines (d : ptr) (tok : ctype) (h : heap) : list (level * line) :=
  if d =? 0 then []
  else match tok with
       | CStr => []
       | CI32 | CBool | CI64 | CF32 | CF64 => match h !! d with Some c => [release_line c d] | None => [] end
       | _ => match h !! d with
              | Some (MArray a t n) =>
                  [release_line (MArray a t n) d] ++ (if n =? 0 then [release_line (MElems (VBytes [])) a] else match h !! a with Some c => [release_line c a] | None => [] end)
              | _ => []
              end
       end.

Definition free_lines (p : ptr) (h : heap) : list (level * line) :=
  match h !! p with
  | Some (MBuffer d tok e) =>
      [release_line (MBuffer d tok e) p] ++ free_data_lines d tok h ++
      (if e =? 0 then []
       else match h !! e with
            | Some (MError code r) =>
                [release_line (MError code r) e] ++
                (if r =? 0 then [] else match h !! r with Some c => [release_line c r] | None => [] end)
            | _ => []
            end)
  | _ => []
  end.

Context (E : env).

Definition answer_lines (s : cstate) (log key : bytes) (ok : level * line) (g : ctype) (e : event) : list (level * line) :=
  match step E (c_world s) e with Some (_, r) => finish_lines log key ok g r (c_heap s) | None => [] end.

(** The lines a C call submits to the logger. *)
Definition lines (s : cstate) (c : ccall) : list (level * line) :=
  match c with
  | CPut p key v =>
      let log := $"put " ++ kind (put_fun v) in
      answer_lines s log (cstr key) (success_line log (cstr key)) (put_fun v)
        (EPut p (cstr key) (match v with VStr x => VStr (cstr x) | _ => v end))
  | CGet p key g =>
      let log := $"get " ++ kind g in
      answer_lines s log (cstr key) (success_line log (cstr key)) g (EGet p (cstr key) (get_type g))
  | CDelete p key => answer_lines s $"delete" (cstr key) (deleted_line (cstr key)) CStr (EDelete p (cstr key))
  | CFree p => free_lines p (c_heap s)
  | _ => []
  end.

(** Those that pass the level (logger.rs:66-71). *)
Definition shown (s : cstate) (c : ccall) : list (level * line) := filter (fun l => (code l.1 <= c_level s)%Z) (lines s c).

(** The lines of a sequence of calls. *)
Fixpoint log_of (s : cstate) (cs : list ccall) : list (level * line) :=
  match cs with
  | [] => []
  | c :: r => shown s c ++ match cstep pick text E s c with Done (s1, _) => log_of s1 r | _ => [] end
  end.

(** ** The JNI interface *)

(** The native functions (jni/mod.rs:148-208, 388-411) by their names. *)
Inductive jfun := JPut (t : ctype) | JGet (t : ctype) | JDelete.

(** The literals of jni/mod.rs:296-387. *)
Definition jkind (t : ctype) : bytes :=
  match t with
  | CStr => $"string" | CBool => $"bool" | CI32 => $"int" | CI64 => $"long" | CF32 => $"float" | CF64 => $"double"
  | CBytes => $"byte array" | CI32s => $"int array" | CI64s => $"long array" | CF32s => $"float array" | CF64s => $"double array"
  end.
Definition jput_kind (t : ctype) : bytes := match t with CI32 => $"i32" | _ => jkind t end.

(** jni/mod.rs:163-174, 190-203, 402-409; the tag is [LOG_TAG] (jni/mod.rs:16). *)
Definition jni_lines (f : jfun) (key : bytes) (r : result) : list (level * line) :=
  let jni := tagged $"MMKV:Android" in
  match f, r with
  | JPut t, ROk _ => [(Verbose, jni ($"put " ++ jput_kind t ++ $" for key '" ++ key ++ $"' success"))]
  | JPut t, RErr e => [(Error, jni ($"failed to put " ++ jput_kind t ++ $" for key " ++ key ++ $", reason " ++ f_err F e))]
  | JGet t, ROk _ => [(Verbose, jni ($"found " ++ jkind t ++ $" with key '" ++ key ++ $"'"))]
  | JGet t, RErr e => [(Error, jni ($"get " ++ jkind t ++ $" for key '" ++ key ++ $"' failed, reason: " ++ f_err F e))]
  | JDelete, ROk _ => [(Verbose, jni ($"delete key " ++ key ++ $" success"))]
  | JDelete, RErr e => [(Error, jni ($"failed to delete key " ++ key ++ $", reason: " ++ f_err F e))]
  | _, RPanic => []
  end.

End Lines.

(** ** Printing *)

(** Where and when a line was written (logger.rs:51-53), as printed. *)
Record stamp := Stamp { s_time : bytes; s_pid : bytes; s_tid : bytes }.

(** logger.rs:23: what [println!] writes, with the end of the line. *)
Definition newline : byte := n2b 10.
Definition printed (w : stamp) (lv : level) (m : line) : bytes :=
  s_time w ++ $" " ++ s_pid w ++ $"-" ++ s_tid w ++ $" " ++ letter lv ++ $" " ++ m.
Definition output (l : list (stamp * level * line)) : bytes := flat_map (fun '(w, lv, m) => printed w lv m ++ [newline]) l.

(** ** The specification *)

(** The text [part] can be read in [whole]. *)
Definition shows (whole part : bytes) : Prop := exists a b, whole = a ++ part ++ b.

(** The lines of a file: what stands between the line ends. *)
Fixpoint read_lines (cur : bytes) (b : bytes) : list bytes :=
  match b with
  | [] => []
  | c :: r => if decide (c = newline) then cur :: read_lines [] r else read_lines (cur ++ [c]) r
  end.
Definition lines_of_file (b : bytes) : list bytes := read_lines [] b.

(** Two C calls that differ at most in the value put, of the same type. *)
Definition same_but_value (c c' : ccall) : Prop :=
  match c, c' with
  | CPut p k v, CPut p' k' v' => p = p' /\ k = k' /\ type_of v = type_of v'
  | _, _ => c = c'
  end.

(** Two histories that differ at most in the values put; opening returned the
    same handles. *)
Definition same_but_values (cs cs' : list (ccall * cret)) : Prop :=
  Forall2 (fun a b => same_but_value a.1 b.1 /\
                      match a.2, b.2 with RHandle p, RHandle p' => p = p' | RHandle _, _ | _, RHandle _ => False | _, _ => True end) cs cs'.

(** The level is set first, below Verbose, and stays there. *)
Definition never_verbose (cs : list (ccall * cret)) : Prop :=
  exists z x r, cs = (CLevel z, x) :: r /\ forall z' x', In (CLevel z', x') cs -> (z' < 5)%Z.

(** A text without line ends. *)
Definition one_line (b : bytes) : Prop := newline ∉ b.

(** The formatting functions and the stamps produce no line ends. *)
Definition fmt_ok (F : fmt) : Prop :=
  (forall x, one_line (f_f32 F x)) /\ (forall x, one_line (f_f64 F x)) /\ (forall p, one_line (f_ptr F p)) /\ (forall e, one_line (f_err F e)).
Definition stamp_ok (w : stamp) : Prop := one_line (s_time w) /\ one_line (s_pid w) /\ one_line (s_tid w).

(** How a level is written. *)
Definition level_name (lv : level) : bytes :=
  match lv with Off => [] | Error => $"E" | Warn => $"W" | Info => $"I" | Debug => $"D" | Verbose => $"V" end.

(** The keys of a call have no line ends. *)
Definition plain_key (c : ccall) : Prop :=
  match c with CPut _ k _ | CGet _ k _ | CDelete _ k => one_line (cstr k) | _ => True end.
