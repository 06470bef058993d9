# Formal model of yangkx-1024/MMKV in Rocq (Coq 8.16.1)

Everything is in `rocq/theories` (logical name `Verif`). The code in `/repo` was only read, never built
or run: the tie between model and code is the citation carried by every model definition.
`properties.jsonl` has the properties in English, `MANIFEST.json` their status and exact theorem names.

Contents: 1 layers of the model; 2 the specification and the standing assumptions; 3 per property: model
and proof; 4 what was found (properties that are false of the code); 5 trusted base; 6 modelled and not
modelled; 7 tests of the theorems against wrong programs.

## 1. Layers of the model

| file | models (in /repo) |
|---|---|
| `Bytes.v` | `u8`, big-endian integers, Rust slice indexing / `copy_from_slice` with their panics |
| `Utf8.v` | well-formed UTF-8 (`String::from_utf8`), Unicode scalar encoding |
| `Proto.v` | `src/protos/kv.proto` wire format as generated by rust-protobuf |
| `Crc8.v` | CRC-8/AUTOSAR of the `crc` crate, as used in `src/core/crc.rs` |
| `Value.v` | `src/core/buffer.rs`, `src/lib.rs`: type tokens, `ToBytes`, `FromBytes`, `Buffer::new/parse`, errors |
| `Codec.v` | `src/core/crc.rs`, record framing of `src/core/encrypt.rs` (the cipher is abstract) |
| `Store.v` | `src/core/memory_map.rs`, `iter.rs`, `writer.rs`, `config.rs`: one data file; records the stores it makes |
| `Encrypt.v` | `src/core/encrypt.rs`: key parsing, nonce file, its name |
| `World.v` | `src/mmkv.rs`, `src/core/mmkv_impl.rs`, `config.rs`: registry, handles, instances with job queues, directories, inodes |
| `Crash.v` | file images visible after a process kill at any store of a background write |
| `Looper.v` | `src/core/io_looper.rs`: submitters, queue, channel, background thread, quit and drop, small steps |
| `Conc.v` | threads calling put/get/delete/clear_data under the RwLock, over `Looper.v` and `World.v`, small steps |
| `Reg.v` | `src/mmkv.rs`: threads in `MMKV::new` (double-checked opening under the registry's RwLock) and `Drop for MMKV` (unregister, release, drop the Arc, join), small steps over `World.v` |
| `Full.v` | `Reg.v` and one machine of `Conc.v` per open store over one shared world: opening, put, get, delete, clear_data, dropping and the background threads, all in small steps |
| `Logging.v` | `src/log`: level filter, log thread (an instance of `Looper.v`), logger replacement |
| `Ffi.v` | `src/ffi`, `proc_macro_lib`: explicit heap with layouts, every C entry point |
| `Bindings.v` | `src/jni`, `android/library/.../MMKV.kt`, `Logger.kt`, `ios/MMKV/Sources/MMKV/*.swift` |
| `Procs.v` | several processes on one machine: each has the memory of `World.v` for itself, the file system is shared; the discipline `turns` and the specification with versions |
| `Page.v` | the lazily initialised page size (`src/mmkv.rs:18-31`) |
| `Gc.v` | when the collector finalizes a Kotlin `MMKV` object |
| `FfiConc.v` | several native threads calling the C interface |
| `Logged.v` | the store with its own log calls |
| `Lines.v` | the text of the lines of the C and JNI layers |
| `Power.v` | what a power failure may leave of every file |
| `Abort.v` | when a panic ends the process: `panic = 'abort'`, and a panic in `Drop for MemoryMap` during unwinding |
| `Spec.v`, `Hyps.v` | the specification (one finite map per directory) and the standing assumptions |
| `Refine.v`, `WorldInv.v`, `WorldStep.v`, `Main.v`, `Frames.v`, `Reach.v` | invariant and refinement proof |
| `Slots.v`, `Damaged.v` | the same for files with damaged records or left half-created |
| `ProtoFacts.v`, `StoreFacts.v`, `Examples.v` | lemmas; concrete environments and traces for the examples |
| `P_*.v` | the property theorems `Cnn_…`, with their definitions and examples |

Style: total computable Gallina functions; a panic is an explicit outcome, and functions that can panic
half way return the state they leave behind. HashMap iteration order is an oracle (`hord`: any enumeration
of the map, possibly a different one each time, depending on a seed that changes). The random generator is
an oracle. Background scheduling, thread schedules and crash points are explicit events or steps over which
the theorems quantify; there is no bound on traces, threads, files or values other than those stated in
`ordinary` (section 2).

Two views of concurrency are used and connected. `World.v` treats a call and a background job as one event
each, interleaved arbitrarily (and a drop as one event or two, `EDropReg`/`EDropArc`). `Looper.v` and `Conc.v`
split calls and jobs into their accesses to shared memory; C17–C20 and C56 are proved there, and
C19/C20 show that every such execution is answered, and leaves files, like a `World.v` run. `Reg.v` does the same for
opening and closing: lock acquisitions, both registry lookups, building, registering, counting references,
unregistering, dropping the Arc and joining are separate steps (a store whose last Arc is gone but whose thread still
works, for which `Weak::upgrade` fails, exists only there); a put, get, delete, clear_data is one step. `Full.v` is both at once,
with nothing coarser than a memory access or a job: `C60_full_refines` shows each of its histories is one of `Reg.v`.

## 2. Specification and standing assumptions

`Spec.v`: `spec_run canon spec0 es` runs a trace against one finite map (key ↦ typed value) per directory and
handles that name directories. It mentions no file, buffer, queue, lock or instance. Most
theorems compare `run E world0 es` (the model) with it.

`Hyps.v`: `ordinary E keyof es` is what most theorems assume of a trace:
* `env_ok`: 64-bit platform, page of 8 bytes to 4 GiB, file size limit below 2^63, hash map enumeration is an
  enumeration, the cipher decrypts what it encrypted, the generator yields 11 bytes;
* every call is one a correct program makes: opens an existing writable directory with that directory's key,
  puts a value whose record fits in a page (`put_ok`), asks for a non-reserved type;
* a directory is always opened through the same text (`one_spelling`);
* `room`: the file size limit (and for the encrypted build the u32 record counter) is out of reach of the
  number of writes in the trace.
`P_Size.v` restates these with numbers only (`explicit`: key length + value length + a constant ≤ page, 32 hex
digits, …) and proves that they imply `ordinary` (`C10_explicit_is_ordinary`), so no theorem depends on reading
the model's encoder. Properties about what happens *outside* these assumptions (large values, other spellings,
interleaved drops, kills, panics, damage, wrong keys, read-only directories, 32-bit) have their own theorems.

Every theorem with hypotheses has an `…_example` beside it with a concrete trace meeting them.

Damage and kills: `Damaged.v` generalises the invariant over a class `rep` of representations; `clean` (files as
the library writes them) and `damaged` (some slots skipped, or half-created) are the two instances. `goes_on`
(P_Damaged.v) says: opening succeeds and every further history of calls, with further kills, is answered by the
specification started from the stated map; it is the conclusion of the `…_and_afterwards` theorems.

## 3. Plan per property

"Invariant" below is `WInv` (WorldInv.v): for every instance, the pending queue applied to the records in its file
gives its in-memory map, which is the specification's map; every closed directory's file holds the specification's map.

* C01, C03, C31, C46 (`Value.v`, `Utf8.v`; P_Map, P_Types): round trip of every type by case analysis and
  big-endian lemmas; lifted to the store through the refinement.
* C02, C04, C05, C16, C25, C28, C36, C45 (P_Map): corollaries of the refinement theorem `reach` and of the frame
  lemmas; C45 for panicking and killed sessions in P_Wrong by an invariant on the disk alone.
* C06, C07, C10, C11, C47, C50 (P_Store, P_Size): one-step theorem for background writes in every
  reachable state (append, grow, compact), for every enumeration order; `holds codec file records` is the file format.
* C08, C09 (P_Store): refuted by a computed trace; the exact growth/threshold is proved.
* C12, C13, C14, C49 (`Crc8.v`, `Slots.v`; P_Corrupt, P_Damaged): the CRC step is a xor-linear bijection (finite sweep over
  256 and 65536 cases, lifted to all messages by induction), so bursts up to 8 bits are detected;
  exact characterisation of the files that open; fuel of the decoding loop never runs out below 4 GiB.
* C15, C21, C22, C23, C24 (`Crash.v`; P_Kill, P_Kill2, P_Damaged): `crash_image` enumerates the files visible
  after any store of a job (also inside a copy); each image is read back by `Slots.v`.
* C17, C18 (`Looper.v`; P_Loop): inductive invariant over all interleavings plus a termination measure.
* C19, C20 (`Conc.v`; P_Conc): forward simulation `Sim`; the linearization point of a call is inside its critical section.
* C62 (P_ConcKill): every state of a concurrent execution has a sequential twin (`twin`): a run of World.v whose disk, after the
  kill, is the same byte for byte and whose queue is the outstanding jobs; the kill theorems of P_Kill/P_Damaged apply to the twin.
  P_FullKill does the same for the composition `Full.v`, for all stores at once: through `FR` and the calm run of P_Reg the disk
  of any state is that of a sequential run of the calls of a linearization, its queues are each store's outstanding jobs, and a
  directory whose files a clear_data has removed early is the one that run would remove; each directory falls back by exactly
  its own outstanding jobs (`outstanding`, `falls_back`), while handles are opened, cloned and dropped by any threads.
* C56 (P_Live): a measure that every step decreases once no new calls begin, and absence of deadlock.
* C60 (`Reg.v`; P_Reg, P_Reg2, P_Reg3): invariants on the lock (`LK`), on handles, registry and calls under way (`HN`), on the
  history (`RH`, `RO`), and a forward simulation to a `calm` run of World.v (`Sim`; the run is ahead of the execution while a
  store is built but not registered or counted but not unregistered); a measure for termination; the hypothesis `apart` (no
  opening while the last handle is being dropped) is shown to be needed by a schedule no order of calls explains (C26's race).
  `Full.v` (P_Full–P_Full4): forward simulation `FR` into Reg.v, store by store (`SR`: quiet, in the late part of
  clear_data, or being closed), the shared files related by `wrel` up to the directories whose files a clear_data has removed early;
  termination by the sum of the measures of P_Reg2 and P_Live.
* C26, C27 (P_Alias): refuted by traces; for `calm` traces the split run is related to an ordinary run.
* C29, C30, C41, C43, C48 (P_Fail): refuted by traces; what remains true is proved in every reachable state.
* C32, C33, C51 (`Logging.v`; P_Log): simulation on top of C17.
* C61 (`Logged.v`; P_Logged): the store code once more with every log call in place, `bad k lv` saying which calls panic. Equal to
  `World.v` when none does, and in ordinary histories when only Error/Warn lines do; under arbitrary failures the file after a
  background write is one a kill between records leaves (invariant of `StoreFacts.v`); refuted by computed runs otherwise.
* C34, C35, C52, C53 (`Ffi.v`; P_Ffi, P_Ffi2, P_Ffi3: which bytes are the text): separation of the heap into the parts owned by each pointer the caller holds.
* C67 (`FfiConc.v`; P_FfiConc–P_FfiConc3): the C functions on top of `Full.v` with one heap for all threads. Invariants: the heap separates
  into the parts owned by what the program holds and the handles being closed (`TI`), a handle held is usable in the store and no call
  goes through a handle being closed (`TU`); the history is one of `Full.v`, so C60 gives the order and the termination.
* C68 (`Gc.v`; P_Gc): a program, a finalizer thread and the library of `Full.v`. For programs that keep an object of every directory they
  open again, the history is `apart` (the object kept is the other open handle), so C60 gives an order; the finalizer's drops are taken
  out of it, what is left is in program order, and renaming handles to objects gives the maps' answers. Completion by C60's termination.
* C42, C54, C55, C63 (`Bindings.v`; P_Bindings): case analysis, UTF-16/UTF-8 transcoding lemmas, and C53 for the answers.
* C37, C38, C39, C40, C44, C58, C59 (P_Enc, P_Enc2, P_Damaged, P_Wrong, P_Key): the cipher is a record of two functions; the only
  law assumed is that it decrypts what it encrypted, and for C37/C44 `no_forgery`, a premise that says which records the
  given cipher accepts. No theorem assumes a cipher unbreakable in general.
* C64, C65 (`Procs.v`; P_Procs–P_Procs3): the writers of all processes together are one world of `World.v` (each process's part cut out by
  `core`/`rest`, a step of a part is a step of the whole: `part_step`, `ext_step`), for which the invariant of `Main.v` holds with the
  versions of a directory as its past; what guests have in memory is a frame the writers never touch. C64 by computed runs.
* C69, C70 (P_Wait) on `Conc.v`: C69 builds the steps of a get from every state in which no exclusive call is in progress. C70: a measure
  over calls, posts and the background thread's hold on the queue decreases with some step that executes no job, until no call is left.
* C71 (P_Foreign): refuted by a file with one record; the exact condition for a panic from C14's description of what opens.
* C72 (`Page.v`; P_Page): relaxed atomics as a modification order with per-thread views; invariants over all executions.
* C73, C74 (`Lines.v`; P_Lines): the text of every line the C and JNI layers write, built from the same allocations as `Ffi.v`; `{:?}` of
  floats, addresses and errors is a parameter. C73 below Verbose: the map of types answers two programs alike (simulation of the
  specification), and only the failure lines pass the level. C74: splitting the printed bytes at line ends.
* C78 (P_Lines2): the error lines of every branch of `lines`, then induction over a run of C calls.
* C75, C76, C77 (`Power.v`; P_Power): the device's view of a run is, for every file, the list of contents it had with the syncs in between;
  a power failure leaves any length and, block by block, any content since the last sync that covered the block. C75: closing a store
  flushes the first `write_offset` bytes after the last change, so every possible image has the same content (invariant over the log of
  a run), and reopening depends on nothing else. C76, C77: refuted by images the definition allows.
* C79 (`Abort.v`; P_Abort): which events end the process, as a function of the world, the profile and what msync does with a range that
  is too long; ordinary events neither panic nor kill a thread (invariant). Opening: exactly the unreadable files with a bad length word.
  After a kill the length word fits in every image of a write in progress. After a power failure too (P_Abort2: an invariant over the
  device log says which versions the disk may still hold: all as long as the file, or an empty one). Refuted by C09's value.
  P_Abort3: exactly the same values, still waiting, when the last handle is dropped or the store is cleared.
* C80 (P_Apart): an invariant (`apart`: the inodes of a directory belong to it alone) kept by every event whatsoever of other directories.
* C81 (P_Copy): copying is one more event, done by somebody else between two background jobs: a fresh file with the same bytes under the
  other name. The invariant of Main.v is kept (the record of the source's directory holds for the copy's, since the key is the same), so
  the main theorem goes on from there. Copies taken inside a background write: what they hold is what a kill there leaves (C22, C23).
* C82 (P_ConcFail): a second simulation over `Conc`, for every world instead of those of ordinary use and without clear_data (C19, C30): a call
  takes effect when its body returns or its `post` does, so its answer is known then; `thread_died` (the state with the thread of
  the instance gone, nothing else changed) is the specification of the death, which the single thread sees at one moment of the order. It
  cannot be put where the background thread really died: a put can die of its own record and be told so (the example), which a single
  thread never sees.
* C83 (P_Switch): files of both formats are frames (a length and that many bytes), so to the other build they are skipped records as long as
  none passes for one of its own; `dir_ok` (WorldInv) has a case for a plain directory whose nonce file is yet to be made, under whatever
  nonce that will be. Reading: the runs of P_Wrong up to the nonce file. Three wishes are refuted by computed runs: additions (the other
  build compacts the owner's records away), dropping the condition (nothing in the file says which build wrote it), clear_data.
* C84 (P_Unlink): `do_clear_r` is `do_clear` with a remove job whose unlinks may fail (equal to it when none does, `do_clear_r_none`); the
  step of clear_data (WorldStep.v) again, with the old file found by the reopen. There (`refusal_ok`) without the case that in the
  encrypted build the data file is refused and the nonce file removed; that case is P_Unlink2: the reopen finds the old file as if a store
  of nothing but rejected slots, given that the cipher rejects each old record under the new nonce (`rejects`).
* C85 (P_ReadOnly): the environment gets a directory whose every spelling `resolve_file_path` rejects, and clear_data is `do_clear_r` there; what goes on beside the store is Beside.v (any event that is not on an instance commutes with changing that instance).
  The thread writes out its queue before the failing reopen, so the files are those of the world in which the queue was just run
  (`writes_same`), and the kill theorem (Main.v) gives what a later process finds.
* C86 (P_Release): an invariant of every run, whatever fails (`kept`: each store is owned by a handle; nothing but the drop of the last
  `Arc` removes one), and one of runs without overlapping drops (`listed`: each entry of the table leads to a store, whose handles have the
  entry's path); in ordinary histories the rest is read off `WInv`.
* C87 (`Echo.v`; P_Echo): the log thread with jobs of several steps, one per request the logger makes; invariants (requests run, in the buffer
  and queued are the requests made; a filled queue has a signal on its way), a weight of requests that every step lowers for the positive
  part, and a cycle of seven steps for the refutation.
* C88 (P_Pages, P_Pages2): `moves` runs processes one after the other, each with its page size; the file invariant without a bound on the size of single
  records (`mOk`) is a representation of WorldInv.v for every page size: the rewrite loop needs only that all records together take at most one
  page more than the map. Missing: entries longer than a page of the new size (they work in `C88_large_entry_example`; the world invariant bounds
  every entry by the page). P_Pages2: any number of processes, each killed or not, directory by directory a prefix of its calls.
* C66 (P_Space): the effects of a background write from `Crash.v`; a growing effect fails, `unwrap` panics and the thread is dead. The
  file then is one that a kill at that point leaves, so C22/C23 say what is read from it; a computed run refutes the claim.
* C57 (P_Damaged): the file system effects of clear_data one by one, a kill between any two of them.

## 4. What was found

These properties are FALSE of the code; each has a `…_refuted` theorem (the property as a user would
wish it, negated, with a computed run of the model as witness) and `…_partial` theorems for what holds.

| | defect | where |
|---|---|---|
| C08 | compaction computes the growth from a stale length: grows more than needed | writer.rs rewrite loop |
| C09 | an append larger than free space + 1 page panics in the writer after the length was stored: writer dead, file unopenable | writer.rs, memory_map.rs:97-110 |
| C14 | a damaged length field makes every open of the directory panic | memory_map.rs, iter.rs |
| C22 | a kill between storing the length and storing the record leaves an unopenable file | memory_map.rs:97-110 |
| C23 | compaction resets the file first: a kill then loses everything | writer.rs 60-80 |
| C24 | put acknowledges before anything is written | mmkv_impl.rs:65-73 |
| C26 | between unregistering and joining, the directory can be opened a second time; updates resurrect | mmkv.rs:43-55 |
| C27 | registry keyed by path text: two live stores on one file | mmkv.rs:70-112 |
| C29 | a put that returns an error has changed the in-memory map | mmkv_impl.rs:65-73 |
| C30 | a failing clear_data leaves the store closed; a retry then returns Ok although nothing was cleared | mmkv_impl.rs:98-114 |
| C34 | IOError and LockError have no code: the C API aborts; clear_data aborts | ffi_buffer.rs, ffi/mod.rs |
| C38 | compaction restarts record numbers at 0 under the same key and nonce: nonce reuse with different plaintexts | writer.rs:74 |
| C41 | on 32-bit targets every open panics (8-byte header read as usize) | memory_map.rs |
| C42 | Swift getter of an empty array traps | FFI.swift:21-31 |
| C43 | a panicking serializer poisons the lock: all later calls fail | mmkv.rs:181-186 |
| C44, C59 | the key is ignored when the directory is already open | mmkv.rs:70-82 |
| C48 | a failing open poisons the registry: no directory can be opened or closed any more | mmkv.rs:84-104 |
| C49 | a 4 GiB file with a length field 2^32-4 makes the release build loop forever | crc.rs |
| C51 | a panicking logger ends the log thread; later log calls panic | logger.rs |
| C51 | without a logger, a closed standard output has the same effect (println! panics) | logger.rs:23 |
| C61 | a failing log line inside a compaction loses persisted data; inside clear_data it leaves behind a thread that later deletes the files of a reopened store; inside an open it aborts the process (default level) or poisons the registry | writer.rs:54-89, io_looper.rs:41-58, mmkv_impl.rs:54 |
| C52 | set_log_level with another number aborts | ffi/mod.rs |
| C54 | Kotlin delete throws an undeclared exception | jni/mod.rs:402 |
| C55 | unpaired surrogates (Kotlin) and zero characters (Swift) change the text | jni, ffi |
| C64 | the condition README.md:25-26 gives for several processes (no competing writes) is not enough: writes that never overlap are lost (after a clear_data; in the encrypted build always), readers of an open store never see them, and opening while another process is between the two stores of an append panics | mmkv_impl.rs:28-63, writer.rs:39-44, config.rs:55-57, memory_map.rs:97-110 |
| C63 | on Android every log line leaves two local references (one of them the text) in the table of the log thread, which is attached for good and never returns to Java: the text of every line is held for ever, and the process ends when the table overflows (after 256 lines before Android 8) | jni/mod.rs:229-246 |
| C73 | the C interface logs every number and array it returns, at level Verbose, which is the default, on standard output by default | ffi_buffer.rs:24, 39, 52, 94, logger.rs:77 |
| C74 | keys are printed as they are: a key with line ends makes any line appear in the log | ffi/mod.rs:201-206, 231, 262, 288, 349, logger.rs:23 |
| C66 | compaction empties the file before it grows it again: a full disk at that moment loses entries that were stored | writer.rs:73-82, config.rs:36-49 |
| C68 | a value stored through an object let go of is not found through a new object of the same directory when the finalizer thread has unregistered the old store but not finished it (C26's race, started by the collector) | MMKV.kt:51-53, mmkv.rs:43-55 |
| C71 | a record of type i32/i64/f32/f64/bool with a correct checksum and too few bytes makes every get of it panic (slice out of range) instead of DataInvalid | buffer.rs:286-290, 298-314 |
| C76 | the nonce file is written without any sync: after a power failure it may be empty, and then the store (closed long ago) is read under a new nonce and its entries are gone | encrypt.rs:64-75 |
| C77 | an append is not ordered on the disk: after a power failure the content length may be there without the record, and opening the store panics, for good | memory_map.rs:97-110, iter.rs |
| C79 | a value larger than free space + 1 page, a file of 1 to 7 bytes or a bad length word does not just panic: the map is dropped while the stack is unwound, and its destructor panics again (msync of a range that is not mapped, or the length is out of range), which aborts the process; the shipped libraries are built with `panic = 'abort'` and end at any panic | memory_map.rs:43-51, 85-89, .cargo/config.toml:5-9 |
| C83 | the same between plain and encrypted builds (nothing in the file says which one wrote it); and clear_data by a plain build leaves the nonce file, so the encrypted build starts again at position 0 of a nonce it has used | writer.rs, config.rs:55-57, encrypt.rs:34-43 |
| C84 | clear_data ignores the errors of unlink: it answers Ok and every entry is still there; if only the nonce file stays, the new file is encrypted under the old nonce from position 0 again | config.rs:55-57, mmkv_impl.rs:107-112 |
| C85 | clear_data panics with the lock held, and the store answers LockError until all its handles are dropped | mmkv.rs:114-126, 206-220 |
| C86 | two threads that drop the last two handles of a directory at once both see the other's reference: the entry of the directory stays in INSTANCE_MAP (a dead weak reference, its allocation kept) until the path is opened again | mmkv.rs:43-55 |
| C87 | a logger that calls, on every line, a library function that writes lines (any call of the C interface at Verbose) keeps the log thread busy for ever; with two or more lines per call the queue grows without bound. There is no guard against lines caused by the logger | logger.rs:50-61, 66-72 |
| C58 | writing under a wrong key compacts the owner's records away | writer.rs |

## 5. Trusted base

* Coq 8.16.1's kernel and `vm_compute` (used in examples, refutations and the CRC sweeps), and coqchk as run by `vcheck`.
* **Print Assumptions**: every theorem named in MANIFEST.json is "Closed under the global context" (no axioms at all; run
  `tools/assumptions.sh` to print them all). coqchk's context listing for the whole development additionally shows seven
  constants `Coq.ssr.ssrunder.Under_rel.*`: the fields of a module type of the standard library's ssreflect plugin, loaded
  through std++. No theorem depends on them.
* Libraries: the Coq standard library and std++ (gmap, lists). No axioms of our own, no functors, no module types, no plugins.
* The reading of the code: that each definition behaves as the lines it cites. Nothing mechanical checks this.
* Assumptions about what is outside the repository (each is visible in a definition):
  - Rust: panics unwind (poisoning locks; `Abort.v` says when the process ends instead, with the profile and msync's answer for unmapped memory as parameters); integer arithmetic wraps (release build) — where a debug build differs
    (overflow panics) a comment says so; `HashMap` iteration is an arbitrary enumeration; `Drop` order as specified.
  - `RwLock`, `Mutex`, `mpsc` and threads as in `Looper.v`/`Conc.v`: sequentially consistent, mutual exclusion,
    unbounded FIFO channel; a fair scheduler is not assumed (C18/C56 are "enabled step exists" + "bounded number of steps").
  - Files: create/truncate/extend/unlink succeed unless modelled otherwise (size limit, directory checks); an unlinked
    inode stays usable through existing maps; a MAP_SHARED mapping is coherent with the file and survives a process kill
    (not a power failure: `Power.v` has that, with what `sync_all` and `msync` force to the disk). `e_canon` maps every path text to the directory it denotes, constantly.
  - `crc`, `protobuf`, `hex`, `eax/aes` crates as modelled in `Crc8.v`, `Proto.v`, `Encrypt.v`, `Codec.v`.

## 6. Modelled and not modelled

Modelled, function by function: all of `src/core` (`buffer`, `config`, `crc`, `encrypt`, `io_looper`, `iter`, `memory_map`, `mmkv_impl`,
`writer`), `src/mmkv.rs`, `src/log`, `src/ffi`, `proc_macro_lib`, `src/jni`, `MMKV.kt`, `Logger.kt`, and the Swift package sources.

Simplified (also said at the definitions):
* `World.v`, `Conc.v` and `Reg.v` leave the log calls inside the store out. `Logged.v` has them all (for histories without
  split drops) and C61 says when leaving them out is exact: always when no log call fails;
* `World.v` reports a handle dropped with a poisoned registry and a dead background thread as one panic; really the second
  panic, raised while the first unwinds, aborts the process (`Logged.v` has this);
* `clear_data`: if the background thread dies between the post of the removal and the sending of Quit, the code keeps the join
  handle; the model drops it (both answer IOError and leave the store closed);
* error payload strings are dropped except in `Ffi.v`, where an arbitrary `text : err -> bytes` stands for them;
* `page_size()` is a parameter of the store's model; its racy initialisation is the model of its own in `Page.v` (C72);
* unknown protobuf fields are skipped and not re-emitted (the library never writes any);
* in `World.v` a post after the death of the background thread fails at once; in the code the receiver is dropped a moment
  after the panic, so a post in that window still succeeds (and its job is lost). `Looper.v` has the window (C17_lost_after_a_panic);
* I/O errors of the operating system other than the file size limit, a failing growth of the file (C66) and failing unlinks (C84) are not modelled (disk full
  while touching a hole would be SIGBUS);
* with several processes (`Procs.v`) calls and background writes of different processes do not overlap, except in
  C64_open_during_append_panics;
* `World.v` takes msync at the end of a thread to succeed and lets unwinding go on; `Abort.v` has the cases where the process ends, and
  C79_ordinary_process_goes_on_partial says that they do not concern ordinary histories;
* power failures (`Power.v`): creating and removing a file is durable at once, a sync that returns has written its range, and a store
  through the map is one change;
* the JVM's and Swift runtime's memory (of the JNI reference tables only the log thread's, C63; of the collector only when it
  finalizes MMKV objects, C68), dispatch to the main queue;
* a C caller is assumed to pass non-null pointers, also for empty arrays (`slice::from_raw_parts` requires it).

* the lines of the store itself (counts, sizes, times, reasons of decoding errors) have no text in the model (`Lines.v` has those of the
  C and JNI layers); the time, process and thread of a line are arbitrary.

Not modelled: demo apps, build scripts, tests, `cbindgen` output (`rust_mmkv.h` was read to check the C types).

## 7. Tests of the theorems against wrong programs

`tools/mutate.py` copies the model to a scratch directory, edits one definition the way a bug would, recompiles every
dependent file, replaces each proof that no longer goes through by `Admitted` and goes on, and finally asks `Print
Assumptions` which `Cnn_` theorems now rest on a broken proof. Because a broken helper lemma does not show that the final
statement is false, the result lists the broken proofs as well as the failed theorems. Each
mutant names the claims that it makes false (`claims_broken`); "repair" mutants fix a bug and must break a `_refuted` theorem;
harmless edits are controls. `seeded/LOG.jsonl` has one line per attempt, `seeded/tightened.json` what was strengthened as a result.
