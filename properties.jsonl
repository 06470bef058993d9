{"id": "C01", "title": "Typed put/get round trip", "statement": "For every built-in value type (i32, i64, f32, f64, bool, string, byte array and the four typed arrays) a put of a value under a key followed by a get of the same type from the same key returns exactly that value (floats bit for bit); a user-defined type gets back exactly the bytes its serializer produced.", "quantifier": "every value of every supported type, every key, every state of an open store", "why_tests_cant": "the value domains are infinite or 2^64 large; the unit tests try a handful of constants", "anchors": ["src/core/buffer.rs: Buffer::new, Buffer::parse, ToBytes, FromBytes", "src/mmkv.rs: MMKV::put, MMKV::get"]}
{"id": "C02", "title": "An open store is a finite map", "statement": "Any sequence of put, get and delete calls on an open store answers exactly as a finite map from keys to (type, value) would: a get returns the most recent put not followed by a delete, and operations on one key never affect another key.", "quantifier": "every finite sequence of operations, every keys and values, every interleaving of the background writer", "why_tests_cant": "histories are unbounded and the background writer runs at arbitrary moments", "anchors": ["src/core/mmkv_impl.rs: MmkvImpl::put, get, delete", "src/mmkv.rs: MMKV::put, get, delete"]}
{"id": "C03", "title": "Reads are type safe", "statement": "A get with a type other than the one last stored under the key fails with TypeMissMatch, a get of an absent or deleted key fails with KeyNotFound, and distinct built-in types are never confused with one another; a get never panics on data that was stored through the API.", "quantifier": "every pair of stored type and requested type, every key and every history", "why_tests_cant": "the number of histories and stored values is unbounded", "anchors": ["src/core/buffer.rs: check_buffer_type, InnerTypes, FromBytes impls", "src/core/mmkv_impl.rs: MmkvImpl::get"]}
{"id": "C04", "title": "Delete", "statement": "delete of a present key makes it absent (also after close and reopen); delete of an absent key succeeds and neither changes memory nor writes anything to the file.", "quantifier": "every store state, key, and continuation including reopen", "why_tests_cant": "needs every history in which the tombstone is followed by compactions, growth and reopens", "anchors": ["src/core/mmkv_impl.rs: MmkvImpl::delete", "src/core/buffer.rs: deleted_buffer, is_deleting", "src/core/iter.rs: into_map"]}
{"id": "C05", "title": "Clean close and reopen loses nothing", "statement": "If every record fits in one page, then after any history of operations, closing the last handle and opening the directory again yields exactly the same key/value map, whatever compactions and file growths happened on the way and in whatever order the hash map enumerated the entries.", "quantifier": "every history of put/delete/clear/close/open, every hash-map enumeration order, every page size of at least 8 bytes", "why_tests_cant": "the interplay of compaction, growth and enumeration order depends on unbounded histories", "anchors": ["src/core/writer.rs", "src/core/iter.rs: into_map", "src/core/mmkv_impl.rs: MmkvImpl::new", "src/core/memory_map.rs: append, reset"]}
{"id": "C06", "title": "Compaction is invisible and complete", "statement": "When the background writer compacts, the set of live key/value pairs is unchanged except for the write that triggered it, and afterwards the file holds exactly one entry per live key and no tombstones.", "quantifier": "every file state, triggering write and enumeration order of the entries", "why_tests_cant": "depends on arbitrary file contents and on the hash map's random order", "anchors": ["src/core/writer.rs: IOWriter::write lines 54-90"]}
{"id": "C07", "title": "File growth discipline", "statement": "The file length is always a whole number of pages, never shrinks except through clear_data, does not change when the new record fits, grows by exactly one page when it does not fit and nothing was overwritten, and stays unchanged when a compaction makes everything fit; repeatedly overwriting a set of keys whose live data fits never grows the file.", "quantifier": "every history of writes, every page size", "why_tests_cant": "growth depends on unbounded histories", "anchors": ["src/core/writer.rs: IOWriter::write, expand", "src/core/config.rs: Config::expand, Config::new"]}
{"id": "C08", "title": "Compaction grows the file only as much as needed", "statement": "A write that has to compact and grow enlarges the file by no more pages than are needed for the live data.", "quantifier": "every file state and triggering write", "why_tests_cant": "needs many small live entries at the end of the enumeration order, a schedule a test cannot force", "anchors": ["src/core/writer.rs: lines 45, 75-82 (max_len is not refreshed after expand)"]}
{"id": "C09", "title": "A large value does not destroy the store", "statement": "A put of a large value either works or fails cleanly: it never kills the background writer and never leaves a file that cannot be opened again.", "quantifier": "every value size and every store state", "why_tests_cant": "needs sizes beyond the slack plus one page; the tests only use values of a few bytes", "anchors": ["src/core/writer.rs: lines 91-96, 77-80", "src/core/memory_map.rs: append", "src/core/config.rs: expand"]}
{"id": "C10", "title": "Records of at most one page are always safe", "statement": "A put whose encoded record is no longer than one page never makes the background writer fail, however full the file is and even when compaction has to grow the file repeatedly; more precisely a plain append fails exactly when the record exceeds the free space plus one page.", "quantifier": "every store state, every record size up to one page, every enumeration order", "why_tests_cant": "the boundary must hold for every fill level and size", "anchors": ["src/core/writer.rs", "src/core/memory_map.rs: append"]}
{"id": "C11", "title": "On-disk record format round trip", "statement": "Decoding the bytes of an encoded entry, followed by any other bytes, yields exactly that entry (key, type, value) and consumes exactly its bytes, and the file is the big-endian content length followed by the encoded entries back to back.", "quantifier": "every key, type token, value up to the size limit and every following byte string", "why_tests_cant": "infinite input space, including negative user type tokens (10 byte varints), empty keys and values", "anchors": ["src/core/crc.rs", "src/core/buffer.rs: to_bytes, from_encoded_bytes", "src/protos/kv.proto"]}
{"id": "C12", "title": "Corruption within a record is detected", "statement": "Changing one byte, or any burst of up to 8 consecutive bits, of a stored entry's payload or checksum makes that entry be skipped on the next open: the changed bytes are never returned as a value. This also holds for several damaged entries at once, and afterwards the store keeps working: every further history of calls, closes and kills is answered from the undamaged entries.", "quantifier": "every entry of every length, every position and every change", "why_tests_cant": "the error patterns times messages are unbounded", "anchors": ["src/core/crc.rs: CrcEncoderDecoder", "src/core/iter.rs: into_map"]}
{"id": "C13", "title": "Corruption is contained", "statement": "If the payload or checksum of one stored entry is corrupted (one byte), opening the store yields exactly the map that results from the other entries: all other keys keep their values.", "quantifier": "every file produced by the library, every entry in it, every single byte change", "why_tests_cant": "unbounded number of files and positions", "anchors": ["src/core/crc.rs: decode_bytes", "src/core/iter.rs: Iter::next, into_map"]}
{"id": "C14", "title": "Opening never crashes on a damaged file", "statement": "Whatever bytes the data file holds, opening the directory returns a usable store and does not panic.", "quantifier": "every byte string as file content", "why_tests_cant": "all byte strings cannot be enumerated", "anchors": ["src/core/crc.rs: lines 27-31", "src/core/iter.rs: Iter::next", "src/core/memory_map.rs: read, write_offset"]}
{"id": "C15", "title": "Half-created stores are repaired", "statement": "If the process died after the data file was created but before it was given its first page (or right after), the next open works and yields an empty store; a crash during file growth leaves the contents intact. Afterwards the store works as any other, in every further history.", "quantifier": "every crash point in store creation and in file growth", "why_tests_cant": "needs kills at exact instructions", "anchors": ["src/core/config.rs: Config::new, Config::expand"]}
{"id": "C16", "title": "clear_data empties the store and leaves it usable", "statement": "After clear_data returns Ok, every key is absent through every handle of that directory, the file is back to one fresh page, later operations on all handles work as on a new store, and reopening shows only what was put after the clear.", "quantifier": "every history before and after the clear, every set of handles, any pending background writes at the time of the call", "why_tests_cant": "pending writes race with the removal; histories unbounded", "anchors": ["src/mmkv.rs: MMKV::clear_data", "src/core/mmkv_impl.rs: MmkvImpl::clear_data", "src/core/io_looper.rs: quit"]}
{"id": "C17", "title": "Background jobs run exactly once and in order", "statement": "For every interleaving of submitters and the background thread, jobs run in an order of submission (a job whose submission returned before another submission began runs first), no job runs twice, and unless some job panics every acknowledged job runs exactly once. (A panicking job ends the thread: the jobs before it have run, acknowledged later ones never will.)", "quantifier": "every number of submitting threads, every interleaving, every number of jobs", "why_tests_cant": "interleavings cannot be enumerated by tests", "anchors": ["src/core/io_looper.rs: IOLooper::post, Executor::new"]}
{"id": "C18", "title": "Close waits for all pending work and always terminates", "statement": "Closing (drop of the last handle, or clear_data) returns successfully only after every submitted background job has run, and fails only if a job panicked; submitting fails only if a job panicked; the background thread can never get stuck with work left; and under every schedule closing finishes after a bounded number of steps.", "quantifier": "every interleaving and every backlog at the time of the close", "why_tests_cant": "a lost wake-up shows only under particular schedules", "anchors": ["src/core/io_looper.rs: IOLooper::quit, Drop for IOLooper, Executor::new"]}
{"id": "C19", "title": "Concurrent use is linearizable", "statement": "When any number of threads call put, get, delete and clear_data on handles of one directory, every call appears to take effect atomically at some instant between its start and its return, with the results of the sequential finite map.", "quantifier": "every number of threads, every program and every interleaving including the background thread", "why_tests_cant": "interleavings are unbounded", "anchors": ["src/mmkv.rs: MMKV::put, get, delete, clear_data (RwLock)", "src/core/mmkv_impl.rs"]}
{"id": "C20", "title": "Concurrent writers: persisted state equals the in-memory state", "statement": "After any concurrent execution, once the store is closed the file contains exactly the final in-memory map: background writes are queued in the same order in which the updates became visible.", "quantifier": "every number of threads and every interleaving of put, get, delete and clear_data", "why_tests_cant": "a reordering between memory and queue shows only in rare schedules", "anchors": ["src/core/mmkv_impl.rs: put, delete", "src/core/io_looper.rs: post"]}
{"id": "C21", "title": "Kill between background writes: a prefix survives", "statement": "If the process is killed while the background writer is between two jobs, or while it is enlarging the file, reopening yields exactly the state after some prefix of the acknowledged operations, namely those the writer has completed.", "quantifier": "every history, every such crash point", "why_tests_cant": "crash points are unbounded", "anchors": ["src/core/writer.rs", "src/core/memory_map.rs (MAP_SHARED)", "src/core/io_looper.rs"]}
{"id": "C22", "title": "Kill in the middle of an append", "statement": "If the process is killed while a record is being appended, the next open succeeds and all previously persisted keys are still there.", "quantifier": "every state and every instant inside an append", "why_tests_cant": "needs a kill between two stores", "anchors": ["src/core/memory_map.rs: append (length is stored before the data)", "src/core/crc.rs: decode_bytes"]}
{"id": "C23", "title": "Kill in the middle of a compaction", "statement": "If the process is killed while the file is being compacted, no previously persisted key is lost.", "quantifier": "every state and every instant inside a compaction", "why_tests_cant": "needs a kill inside the rewriting loop", "anchors": ["src/core/writer.rs: lines 73-82", "src/core/memory_map.rs: reset"]}
{"id": "C24", "title": "An acknowledged put survives a kill", "statement": "Once put has returned Ok the value survives a kill of the process.", "quantifier": "every history and every schedule of the background writer", "why_tests_cant": "needs a kill before the background thread runs", "anchors": ["src/core/mmkv_impl.rs: put", "src/core/io_looper.rs: post"]}
{"id": "C25", "title": "Handles of one directory share one store", "statement": "Opening the same directory several times yields handles that see each other's updates immediately; the store is closed exactly when the last handle is dropped, and dropping one of several handles affects nothing.", "quantifier": "every number of handles and directories, every order of open, use and drop (sequential opens and drops)", "why_tests_cant": "reference counting must hold for every order", "anchors": ["src/mmkv.rs: MMKV::new, Drop for MMKV, INSTANCE_MAP"]}
{"id": "C26", "title": "Reopening while the last handle is being dropped", "statement": "If one thread drops the last handle of a directory while another opens it, the new handle sees every update acknowledged before, and never are there two live stores for one directory.", "quantifier": "every interleaving of drop and open", "why_tests_cant": "a narrow window between releasing the registry lock and joining the writer", "anchors": ["src/mmkv.rs: Drop for MMKV, MMKV::new", "src/core/io_looper.rs: Drop for IOLooper"]}
{"id": "C27", "title": "Different spellings of one directory", "statement": "Two handles opened through different spellings of the same directory (such as \"a\" and \"a/.\") behave like handles of one store.", "quantifier": "every pair of spellings", "why_tests_cant": "the aliasing relation is given by the file system", "anchors": ["src/mmkv.rs: INSTANCE_MAP keyed by the textual path"]}
{"id": "C28", "title": "Directories are isolated", "statement": "Operations on the store of one directory never change what handles of another directory observe, nor the other directory's file.", "quantifier": "every interleaving of operations over every number of directories", "why_tests_cant": "unbounded histories over several stores", "anchors": ["src/mmkv.rs", "src/core/config.rs"]}
{"id": "C29", "title": "A failed put has no effect", "statement": "If put returns an error, the store is unchanged: a following get does not see the new value.", "quantifier": "every state including those in which the background thread has died", "why_tests_cant": "needs a dead background thread", "anchors": ["src/core/mmkv_impl.rs: put (map updated before post)", "src/core/io_looper.rs: post"]}
{"id": "C30", "title": "clear_data that returns Ok has cleared the data", "statement": "Whenever clear_data returns Ok, no key stored before is visible afterwards, even if an earlier background failure or an earlier failing clear_data occurred.", "quantifier": "every history including background failures", "why_tests_cant": "needs a failing clear followed by another", "anchors": ["src/core/mmkv_impl.rs: clear_data (already closed branch)", "src/mmkv.rs: MMKV::clear_data"]}
{"id": "C31", "title": "Reserved type tokens", "statement": "A user-defined type can never use a token in 0..=100, so it can collide neither with a built-in type nor with the deletion marker; built-in types have pairwise distinct tokens; every other i32 token is accepted and preserved.", "quantifier": "every i32", "why_tests_cant": "2^32 tokens times histories", "anchors": ["src/core/buffer.rs: TypeToken::new, InnerTypes"]}
{"id": "C32", "title": "Log level filter", "statement": "A log call of a given level is delivered exactly when the level is at or above the configured severity threshold (Off silences everything), the integer conversion of levels is a bijection on 0..5 and rejects everything else.", "quantifier": "every level, threshold and i32, every sequence of level changes", "why_tests_cant": "trivial per case but must hold for all sequences", "anchors": ["src/log/logger.rs: log, set_log_level", "src/log/mod.rs: LogLevel, TryFrom<i32>"]}
{"id": "C33", "title": "Logger replacement", "statement": "Log lines are delivered in order, each to the logger that was installed when the line was issued: lines before set_logger go to the old logger, lines after it to the new one, and each old logger is released exactly once, after its last line.", "quantifier": "every sequence of log calls and logger replacements and every schedule of the log thread", "why_tests_cant": "unbounded sequences and schedules", "anchors": ["src/log/logger.rs: set_logger, LogWriter::write, redirect", "src/core/io_looper.rs"]}
{"id": "C34", "title": "C API error codes", "statement": "Every error the store can report is turned into an error record with its documented code and no call aborts while reporting an error.", "quantifier": "every error value", "why_tests_cant": "errors of a dead background thread or poisoned lock do not occur in tests", "anchors": ["src/ffi/ffi_buffer.rs: TryFrom<Error> for InternalError", "src/ffi/mod.rs: map_error"]}
{"id": "C35", "title": "C API memory ownership", "statement": "Every result handed out by the C API owns its data; freeing the result once releases every allocation made for it exactly once (no leak, no double free), for all value types and for errors.", "quantifier": "every API call, every result type and every value, every order of frees", "why_tests_cant": "leaks and double frees are invisible to assertions on values", "anchors": ["src/ffi/ffi_buffer.rs: leak, release, RawBuffer, RawTypedArray, ByteSlice, InternalError", "proc_macro_lib/src/lib.rs"]}
{"id": "C36", "title": "Encrypted store round trip and persistence", "statement": "With encryption enabled, for any authenticated cipher that decrypts what it encrypted, the store behaves as the finite map and survives close and reopen with the same key, through appends, growth and compactions.", "quantifier": "every history, key, nonce, enumeration order", "why_tests_cant": "unbounded histories; counters must match positions after every compaction", "anchors": ["src/core/encrypt.rs: Encryptor", "src/core/writer.rs: position", "src/core/iter.rs: position"]}
{"id": "C37", "title": "Encrypted records are bound to their place and key", "statement": "For an ideal authenticated cipher, a record that was modified, moved to another position, or written under another key or nonce is skipped: it never yields a value, and opening with the wrong key gives an empty store without a crash. Afterwards the store keeps working: every further history is answered from the entries that were accepted.", "quantifier": "every file written by the library, every modification of a record body", "why_tests_cant": "unbounded files and modifications", "anchors": ["src/core/encrypt.rs: decode_bytes, StreamWrapper::decrypt"]}
{"id": "C38", "title": "Nonces are never reused", "statement": "Two different plaintexts are never encrypted under the same key, nonce and counter.", "quantifier": "every history of an encrypted store", "why_tests_cant": "requires looking at all encryptions over the life of a file", "anchors": ["src/core/writer.rs: line 74 (position = 0)", "src/core/encrypt.rs: StreamWrapper::encrypt, new_with_nonce"]}
{"id": "C39", "title": "Nonce file life cycle", "statement": "The first open creates an 11 byte nonce file, every later open uses the same nonce, and a nonce file of any other length is replaced by a fresh one without a crash; clear_data removes it.", "quantifier": "every content of the nonce file and every sequence of opens and clears", "why_tests_cant": "all possible contents of the meta file", "anchors": ["src/core/encrypt.rs: StreamWrapper::init, new, new_with_nonce", "src/core/mmkv_impl.rs: clear_data"]}
{"id": "C40", "title": "Nonce file name", "statement": "The side file of a data file is the data file's name with .meta appended, for every file name; so it differs from the data file and different data files have different side files.", "quantifier": "every file name", "why_tests_cant": "infinite set of names (dots, leading dots, trailing dots)", "anchors": ["src/core/encrypt.rs: resolve_meta_file_path"]}
{"id": "C41", "title": "Works on 32-bit targets", "statement": "The library works on the 32-bit Android target the build script ships (armeabi-v7a).", "quantifier": "every store on a platform with 4-byte usize", "why_tests_cant": "the tests run on 64-bit hosts only", "anchors": ["src/core/memory_map.rs: LEN_OFFSET, write_offset, append", "build_android.sh"]}
{"id": "C42", "title": "Kotlin and Swift wrappers are faithful", "statement": "The Kotlin getters with a default return the stored value when there is one of that type and the default otherwise; boolean and byte conversions lose nothing; the Swift getters return the stored value for every value, including empty arrays.", "quantifier": "every value and every failure", "why_tests_cant": "all values; empty arrays are not tested", "anchors": ["android/library/src/main/java/net/yangkx/mmkv/MMKV.kt", "src/jni/mod.rs", "ios/MMKV/Sources/MMKV/FFI.swift: readArray", "ios/MMKV/Sources/MMKV/ResultWrapper.swift"]}
{"id": "C43", "title": "A panicking user serializer does not break the store", "statement": "If a user-defined serializer or deserializer panics, only that call fails; later calls work as before.", "quantifier": "every history containing panicking user code", "why_tests_cant": "unit tests use well-behaved types", "anchors": ["src/mmkv.rs: MMKV::put (serializer runs under the write lock)", "src/core/buffer.rs: Buffer::new"]}
{"id": "C44", "title": "A handle needs the right key", "statement": "Opening an encrypted directory with a wrong key never gives access to its data.", "quantifier": "every pair of keys, every state of other handles", "why_tests_cant": "depends on another handle being open", "anchors": ["src/mmkv.rs: MMKV::new (existing instance branch ignores key)"]}
{"id": "C45", "title": "Reads and idle reopen cycles have no effect", "statement": "get never changes the store or the file, and opening and closing a store without writing leaves every byte of its file unchanged. More generally a session that only opens, reads and closes existing stores changes no file, whatever keys are used and whatever panics or kills happen in it.", "quantifier": "every state and any number of reads and open/close cycles", "why_tests_cant": "unbounded numbers of cycles and states", "anchors": ["src/core/mmkv_impl.rs: get, new", "src/core/config.rs: Config::new"]}
{"id": "C46", "title": "Strings are valid UTF-8", "statement": "A get of type string returns only well-formed UTF-8: every sequence of Unicode scalar values is stored and returned unchanged, and a byte string that is not well-formed is reported as DataInvalid.", "quantifier": "every Unicode string and every byte string", "why_tests_cant": "infinite domains", "anchors": ["src/core/buffer.rs: FromBytes for String, ToBytes for &str"]}
{"id": "C47", "title": "Writes are append-only between compactions", "statement": "A background write that does not compact changes no byte of previously persisted entries; it only extends the content and updates the content length.", "quantifier": "every file state and write", "why_tests_cant": "all file states", "anchors": ["src/core/memory_map.rs: append", "src/core/writer.rs: write"]}
{"id": "C48", "title": "A failing open affects only that open", "statement": "If opening one directory panics (not a directory, read-only, damaged file), opening and closing other directories still works.", "quantifier": "every sequence of opens over several directories", "why_tests_cant": "requires a panic while the registry is locked", "anchors": ["src/mmkv.rs: MMKV::new (registry write lock held during creation), Drop for MMKV"]}
{"id": "C49", "title": "Reading a file terminates and makes progress", "statement": "Decoding a file of any content always terminates: every decoding step consumes at least four bytes or stops.", "quantifier": "every byte string below 4 GiB as file content", "why_tests_cant": "non-termination on crafted contents cannot be excluded by examples", "anchors": ["src/core/iter.rs: Iter::next", "src/core/crc.rs", "src/core/encrypt.rs"]}
{"id": "C50", "title": "Sequence numbers match record positions", "statement": "At every moment the writer's next sequence number equals the number of records in the file (modulo 2^32), also after reopen and after compaction, so that every record is later decoded with the number it was encoded with.", "quantifier": "every history, reopen and compaction", "why_tests_cant": "unbounded histories", "anchors": ["src/core/writer.rs: position", "src/core/iter.rs: into_map count", "src/core/mmkv_impl.rs: new"]}
{"id": "C51", "title": "Logging does not make callers fail", "statement": "An API call that writes a log line is not made to fail or panic by logging, whatever the installed logger does with earlier lines.", "quantifier": "every logger behaviour, including one that panics, every sequence of log lines and every schedule of the log thread", "why_tests_cant": "tests install a well-behaved logger; the failure appears in unrelated calls long after the bad line", "anchors": ["src/log/logger.rs: format_log, set_logger", "src/core/io_looper.rs: post, Executor::new"]}
{"id": "C52", "title": "C API log level", "statement": "Setting the log level from C to a number 0..5 selects exactly that level; any other number is rejected without ending the process.", "quantifier": "every 32-bit integer", "why_tests_cant": "tests pass valid levels only", "anchors": ["src/ffi/mod.rs: set_log_level", "src/log/mod.rs: TryFrom<i32> for LogLevel"]}
{"id": "C53", "title": "The C API behaves like the map", "statement": "For every sequence of C calls by a caller that respects the ownership rules, every result shows exactly what a finite map from keys to typed values would answer (value, nothing, key-not-found or type-mismatch code), and no call aborts.", "quantifier": "every sequence of C calls, every allocator behaviour, every order of frees and background progress, with values that fit a page", "why_tests_cant": "all call sequences and all heap layouts", "anchors": ["src/ffi/mod.rs: impl_put, impl_get, impl_put_typed_array, delete, clear_data, new_instance, close_instance", "src/ffi/ffi_buffer.rs"]}
{"id": "C54", "title": "Kotlin exceptions are the documented ones", "statement": "The Kotlin calls throw only the exception they declare: puts and delete NativeException, getters KeyNotFoundException, and getters with a default throw nothing.", "quantifier": "every call and every answer of the store", "why_tests_cant": "failing deletes need a dead background thread or poisoned lock", "anchors": ["src/jni/mod.rs: impl_java_put, impl_java_get, Java_net_yangkx_mmkv_MMKV_delete", "android/library/src/main/java/net/yangkx/mmkv/MMKV.kt"]}
{"id": "C55", "title": "Text crosses the language border unchanged", "statement": "A string put from Kotlin or Swift comes back equal, and two different keys never name the same entry, for every string of the language.", "quantifier": "every Kotlin (UTF-16) and Swift string, including zero characters and unpaired surrogates", "why_tests_cant": "all strings", "anchors": ["src/jni/mod.rs: env_str, mmkv_get jstring", "src/ffi/mod.rs: CStr::from_ptr", "ios/MMKV/Sources/MMKV/MMKV.swift"]}
{"id": "C56", "title": "Every call returns", "statement": "However the calling threads and the background thread are scheduled, put, get, delete and clear_data on the handles of one store never deadlock or run forever: once no new calls begin, only boundedly many steps remain, and until every call has returned and the background thread has finished its work some thread can take a step.", "quantifier": "every number of threads, every program of calls and every schedule", "why_tests_cant": "a deadlock or livelock shows only under particular schedules", "anchors": ["src/mmkv.rs: MMKV::put, get, delete, clear_data (RwLock)", "src/core/io_looper.rs: IOLooper::post, quit, Executor::new", "src/core/mmkv_impl.rs: clear_data"]}
{"id": "C57", "title": "Clearing is all or nothing across kills", "statement": "If the process is killed at any point inside clear_data (between two of the background writes it waits for, or anywhere after the data file was removed, with any part of the new files written), the next open succeeds and finds either the state after some prefix of the earlier calls, namely the writes completed, or an empty store, never a part of the old contents; other directories are as after any kill, and every further history is answered from that state.", "quantifier": "every history before, every kill point between the file system effects of clear_data, every history after", "why_tests_cant": "needs kills at exact points for every state", "anchors": ["src/mmkv.rs: MMKV::clear_data", "src/core/mmkv_impl.rs: clear_data", "src/core/config.rs: Config::new, remove_file", "src/core/encrypt.rs: StreamWrapper::init"]}
{"id": "C58", "title": "A wrong key does no damage", "statement": "Whatever is done with a closed encrypted store under a wrong key, its owner finds all the data afterwards.", "quantifier": "every history of the owner, every session under another key", "why_tests_cant": "depends on when the file fills up and is compacted", "anchors": ["src/core/encrypt.rs", "src/core/mmkv_impl.rs: MmkvImpl::new", "src/core/writer.rs: IOWriter::write"]}
{"id": "C59", "title": "Keys are 32 hexadecimal digits", "statement": "In the encrypted build a key is accepted exactly if it is a text of 32 hexadecimal digits; upper and lower case denote the same key and otherwise different texts are different keys; an open with anything else is refused and changes no byte of any existing store.", "quantifier": "every key text, every state of the store and of other handles", "why_tests_cant": "all texts of all lengths, all states", "anchors": ["src/core/encrypt.rs: Encryptor::init", "src/mmkv.rs: MMKV::new (existing instance branch ignores key)"]}
{"id": "C60", "title": "Opening, using and closing stores from many threads", "statement": "Any number of threads may open directories, use handles and drop them at the same time. Every call returns; two open handles of one path always reach the same store; and, as long as a directory is not being opened while its last handle is being dropped, all answers are those of one order of the calls that respects real time: opening the same directory twice at once yields one store, nothing acknowledged is lost by a concurrent close, and reopening finds what was put.", "quantifier": "every number of threads, every interleaving of the steps of MMKV::new, put, get, delete, clear_data, Drop and the background writers, every environment", "why_tests_cant": "the races are between a read lock, a write lock, a reference count and a joining thread; schedules cannot be enumerated", "anchors": ["src/mmkv.rs: MMKV::new, Drop for MMKV, INSTANCE_MAP", "src/core/io_looper.rs: Drop for IOLooper"]}
{"id": "C61", "title": "Logging does not affect the stored data", "statement": "Writing log lines never changes what the store does: with a logger that works, all answers and all files are those of a silent library; a logger that fails (the log thread is gone, every enabled log call panics) does not lose or corrupt data that was stored, and does not stop stores from being opened, used and closed.", "quantifier": "every history of calls and background writes, every set of failing log calls (every logger, level setting and moment of failure)", "why_tests_cant": "the log calls sit between the file changes of a compaction and inside locked sections; every call can be the failing one", "anchors": ["src/core/writer.rs: write", "src/core/config.rs: expand", "src/core/io_looper.rs: quit, Drop", "src/core/mmkv_impl.rs: new, clear_data", "src/mmkv.rs: new, Drop", "src/log/logger.rs: format_log"]}
{"id": "C62", "title": "A kill while threads are calling", "statement": "While any number of threads open, clone, drop and call put, get, delete and clear_data on any number of stores, the process may be killed at any moment. When a directory is opened again it holds what the calls left, in one order that respects real time, minus the writing calls on it whose background write had not been carried out: exactly as many as it had outstanding writes, and always the last ones of that order. If its background thread was idle nothing is lost. (Not covered: opening a directory while its last handle is being dropped, see C26.) Every other directory holds a state it had, and all later calls, further kills included, behave as if the process had started from that state. A kill while clear_data recreates the files leaves an empty store.", "quantifier": "every number of threads, every interleaving of the steps of the calls and of the background thread, every moment of the kill, every history before and every history (with further kills) after", "why_tests_cant": "the moment of the kill and the schedule cannot be enumerated; the surviving state depends on both", "anchors": ["src/mmkv.rs: put, get, delete, clear_data", "src/core/mmkv_impl.rs: put, delete, clear_data", "src/core/io_looper.rs: post, Executor::new", "src/core/memory_map.rs: append"]}
{"id": "C63", "title": "Log lines leave nothing behind", "statement": "The library can log for ever: once a line has been delivered to the logger of the platform (C, Swift, Kotlin), with its text and at the method of its level, nothing that was allocated for it stays behind.", "quantifier": "every number of log lines, every text, every level, every allocator, every capacity of the JVM's reference table", "why_tests_cant": "a leak of a few references per line shows only after hundreds (old Android) or millions of lines", "anchors": ["src/jni/mod.rs: AndroidLogger::call_java", "src/ffi/mod.rs: NativeLogger::call_target", "src/log/logger.rs: redirect"]}
{"id": "C64", "title": "Several processes without competing writes", "statement": "README: the store can be used from several processes as long as there is no competing write. So: if, whenever a process writes (in a call or in the background), all writes of all other processes are finished, then the answers in all processes are those of one process that makes all the calls.", "quantifier": "every number of processes, every history of their calls and every schedule of their background threads in which no two writes compete", "why_tests_cant": "needs all interleavings of several processes; what is lost depends on what each process believes the file to be", "anchors": ["README.md: 25-26", "src/core/mmkv_impl.rs: new", "src/core/writer.rs: write", "src/core/config.rs: remove_file", "src/core/memory_map.rs: append"]}
{"id": "C65", "title": "Processes that take turns", "statement": "If a directory is opened for writing only while no other process has it open for writing (any number of other processes may have it open only for reading), then a writer reads exactly what the writers before it, in whatever process, have written; a reader reads, as long as it keeps the directory open, the one version of the data that was in the file when it opened it: a state the writer had, namely without the writes whose background job was still outstanding; readers change nothing for anybody; a process that dies loses exactly the background writes it had outstanding, and nothing of other processes; dropping the last handle of a writer leaves the newest version in the file.", "quantifier": "every number of processes, every history of calls, openings, drops and deaths of processes that keeps to the discipline, every schedule of all background threads (deaths between background writes)", "why_tests_cant": "needs all interleavings of the processes and their background threads, and all moments of death", "anchors": ["README.md: 25-26", "src/mmkv.rs: new, put, get, delete, clear_data, Drop", "src/core/mmkv_impl.rs: new", "src/core/writer.rs: write", "src/core/memory_map.rs: MemoryMap::new (MAP_SHARED)"]}
{"id": "C66", "title": "Running out of disk space loses no stored data", "statement": "If making the data file longer fails (disk full, quota) while a write is being carried out in the background, then everything that could be read before can still be read after the next start, with the value it had, except possibly the key being written; and until then reading goes on as before, while further writes are reported as failed.", "quantifier": "every reachable state, every pending write, every attempt to grow the file in it, every key", "why_tests_cant": "needs a failure at each point where a file is grown, in every state the store can be in", "anchors": ["src/core/config.rs: expand", "src/core/writer.rs: write, expand", "src/core/io_looper.rs: Executor::new"]}
{"id": "C67", "title": "The C interface called from several threads", "statement": "A C program may call the library from any number of threads, sharing handles between threads and freeing a result in another thread than the one that got it, if it only uses handles and results it holds, frees each once and does not close a handle while a call through that handle is under way. Then: no call is undefined behaviour; every result not yet freed shows what its call answered, whatever other threads do; no pointer returned is one somebody still holds; when everything is freed and closed nothing is left allocated; the calls answer as if each took effect at one moment between its beginning and its return (in ordinary use); none aborts the process except for a text that is not UTF-8 or a log level that does not exist; every permitted call can be begun and every call that is under way can be finished.", "quantifier": "every number of threads, every program that keeps to the rules, every interleaving of all steps of all calls and background threads, every allocator", "why_tests_cant": "needs all schedules of all threads and background threads and all choices of the allocator", "anchors": ["src/ffi/mod.rs: new_instance, impl_put, impl_get, delete, clear_data, close_instance, free_buffer", "src/ffi/ffi_buffer.rs", "src/mmkv.rs: new, Drop"]}
{"id": "C68", "title": "The garbage collector never changes an answer (Kotlin)", "statement": "A Kotlin program that makes MMKV objects, calls their methods and lets go of objects gets from every call the answer a map per directory gives, whenever the virtual machine finalizes the objects let go of (at once, late, while other calls run, or never); no call and no finalizer panics, and the program runs to its end.", "quantifier": "every program of one thread in ordinary use, every moment the finalizer thread runs, every interleaving of its steps with those of the program's calls and the background threads", "why_tests_cant": "the collector's timing cannot be chosen by a test, and all interleavings of the finalizer thread, the caller and the background threads count", "anchors": ["android/library/src/main/java/net/yangkx/mmkv/MMKV.kt: nativeObj, finalize", "src/jni/mod.rs: initialize, close", "src/mmkv.rs: new, Drop"]}
{"id": "C69", "title": "Gets do not wait for each other", "statement": "While the only calls in progress on a store are gets, in any number and at any place, a get that is called now, and each of those in progress, can return by steps of its own thread alone (at most three and the return), without any other call moving.", "quantifier": "every state of an open store, every schedule of calls by any number of threads, every moment at which all puts, deletes and clear_datas have returned", "why_tests_cant": "a test sees some schedules; a lost reader lock shows only as waiting under particular ones", "anchors": ["src/mmkv.rs: get, put, delete, clear_data (RwLock)"]}
{"id": "C70", "title": "Puts, gets and deletes do not wait for the files", "statement": "At any moment at which no clear_data is in progress, all calls in progress can return within a number of steps that depends only on the number of calls, without the background thread executing any of its pending writes and without any change to the files.", "quantifier": "every ordinary history, every schedule of calls by any number of threads and of the background thread, every backlog of pending writes", "why_tests_cant": "timing tests cannot show independence from every backlog and every position of the background thread", "anchors": ["src/mmkv.rs: put, get, delete", "src/core/mmkv_impl.rs: put, delete", "src/core/io_looper.rs: post, Executor::new"]}
{"id": "C71", "title": "Reading a value the library did not write never crashes", "statement": "Whatever bytes the data file holds (another program's records, damage the checksum does not see), once the directory has been opened a get of any key with any allowed type returns a value or an error; it does not panic.", "quantifier": "every history, every content of the data file below 4 GiB, every key and type", "why_tests_cant": "all byte strings with correct checksums and all types must be covered", "anchors": ["src/core/buffer.rs: FromBytes, parse", "src/mmkv.rs: get"]}
{"id": "C72", "title": "The page size is right whoever asks first", "statement": "When any number of threads open stores at the same time, every one of them works with the system's page size, never with 0 or another value; none waits for another, and each thread asks the system at most once.", "quantifier": "every number of threads, every schedule, every behaviour relaxed atomics allow", "why_tests_cant": "the outcomes of relaxed accesses on weakly ordered hardware cannot be enumerated by running a test", "anchors": ["src/mmkv.rs: page_size"]}
{"id": "C73", "title": "Values stay out of the log", "statement": "What is stored does not appear in the log: two programs that differ only in the values they put write the same log lines.", "quantifier": "every program using the C interface or the native functions of the Android library, every value of every type, every log level", "why_tests_cant": "a statement about pairs of runs and all values; tests do not read the log", "anchors": ["src/ffi/ffi_buffer.rs: Leakable::leak, Releasable::release, RawTypedArray::new", "src/ffi/mod.rs: impl_put!, impl_put_typed_array!, impl_get!, map_error, delete", "src/jni/mod.rs: impl_java_put!, impl_java_get!, delete"]}
{"id": "C74", "title": "Every printed line is a log call", "statement": "Without a logger the library prints its log; every line printed is one log call, with the time, process, thread, level letter and text of that call, and nothing a caller passes in can make a line appear that the library did not write.", "quantifier": "every sequence of C calls, every key, every level", "why_tests_cant": "ranges over all keys and texts", "anchors": ["src/log/logger.rs: LogWriter::write, format_log", "src/log/mod.rs: Display for LogLevel", "src/ffi/mod.rs: impl_put!, impl_get!, delete"]}
{"id": "C75", "title": "A closed store survives a power failure (plain build)", "statement": "Once the last handle of a store is dropped, everything put into it is on the disk: if the machine stops at any later moment, whatever other stores are doing, the directory opens and answers every get as before; and if all stores are closed, no further call can tell that there was a power failure.", "quantifier": "every history of calls and background steps, every moment after the drop, every block size and every choice the disk makes about what was written back", "why_tests_cant": "tests cannot cut the power; the claim ranges over all sets of pages the kernel may have written back", "anchors": ["src/core/memory_map.rs: RawMmap::flush, Drop for MemoryMap", "src/core/config.rs: Config::new, Config::expand", "src/core/io_looper.rs: Drop for IOLooper", "src/core/writer.rs: expand"]}
{"id": "C76", "title": "A closed store survives a power failure (encrypted build)", "statement": "The same in the encrypted build: once the last handle is dropped, a power failure loses nothing.", "quantifier": "every history of calls and background steps, every moment after the drop, every block size, every choice of the disk", "why_tests_cant": "tests cannot cut the power", "anchors": ["src/core/encrypt.rs: StreamWrapper::init, StreamWrapper::new, new_with_nonce", "src/core/memory_map.rs: Drop for MemoryMap"]}
{"id": "C77", "title": "An open store survives a power failure", "statement": "Whatever is going on when the machine stops, every store opens again and holds what it held after some earlier call.", "quantifier": "every history, every moment, every choice of the disk about what was written back", "why_tests_cant": "tests cannot cut the power", "anchors": ["src/core/memory_map.rs: append, reset, flush", "src/core/writer.rs: write", "src/core/mmkv_impl.rs: new"]}
{"id": "C78", "title": "Failures are in the log", "statement": "Unless the log is off, every put, get or delete of the C interface (and of the Android library) that fails writes exactly one line at level Error, which shows the key and the reason; no call that succeeds writes one. So the error lines of a program's log are those of its failed calls, in order.", "quantifier": "every sequence of C calls, every key, value and type, every level but Off", "why_tests_cant": "ranges over all programs; tests do not read the log", "anchors": ["src/ffi/mod.rs: map_error, impl_put!, impl_get!, delete", "src/jni/mod.rs: impl_java_put!, impl_java_get!, delete", "src/log/logger.rs: log"]}
{"id": "C79", "title": "Panics never end the process", "statement": "No call of the library ends the process it is in, whatever value is put and whatever a data file contains: the worst a call may do is panic in the thread that made it (or stop the store's background thread).", "quantifier": "every history of calls and background work, every content of a data file, every moment a kill can have left behind, both build profiles", "why_tests_cant": "a test harness dies with the process, and the contents of files and the histories are unbounded", "anchors": [".cargo/config.toml: panic", "src/core/memory_map.rs: RawMmap::flush, Drop for MemoryMap, write_offset, append", "src/core/io_looper.rs: Executor::new", "src/core/mmkv_impl.rs: new"]}
{"id": "C80", "title": "Trouble with one store leaves the others alone", "statement": "Whatever happens to other stores (a panic, a stopped background thread, a damaged file, a value that is too large, the end of the process) the files of a directory do not change as long as no call and no background work is for that directory, and it opens again with what a kill at that moment would have left.", "quantifier": "every history of ordinary calls, followed by any events at all (in this and later processes) for other directories, both build profiles", "why_tests_cant": "ranges over all histories and all failures", "anchors": ["src/core/config.rs: new, expand, remove_file", "src/core/mmkv_impl.rs: new, clear_data", "src/core/io_looper.rs", "src/mmkv.rs"]}
{"id": "C81", "title": "A copied directory is a store", "statement": "The files of a directory, copied to another directory nobody has open (as a backup, or back again), are a store there: opened with the same key it holds what the source held, and from then on the two are independent maps. The source may be open and in use; changes that the background thread has not written yet when the copy is taken are missing from it, and nothing else is.", "quantifier": "every history of calls and background work with any number of copies between directories, every moment between two background jobs, every further history, both builds", "why_tests_cant": "ranges over all histories, all moments of copying and everything done with both stores afterwards", "anchors": ["src/mmkv.rs: MMKV::new, resolve_file_path", "src/core/encrypt.rs: resolve_meta_file_path, StreamWrapper::init", "src/core/mmkv_impl.rs: new", "src/core/io_looper.rs"]}
{"id": "C82", "title": "Calls that overlap are atomic also when they fail", "statement": "Puts, gets and deletes that several threads make on one store answer as if they had been made one at a time, in an order that respects which call ended before which began, also when some of them fail: when a value is too large, a put panics, the store is closed or poisoned, or the background thread has died. In that order the background thread dies at one moment or never, every answer is the one a single thread would have got there, and what is in memory afterwards is what that thread would find. Once one put or delete has been told IOError, no put that begins later, on any thread, succeeds.", "quantifier": "every store (healthy, closed or poisoned, with any contents), any number of threads, every schedule, every puts, gets and deletes with any values, every file contents and answer of the cipher", "why_tests_cant": "ranges over all interleavings and all failures; the interesting ones need the background thread to run and die between the push and the send of a single call", "anchors": ["src/mmkv.rs: put, get, delete", "src/core/mmkv_impl.rs: put, get, delete", "src/core/io_looper.rs: post, Executor::new"]}
{"id": "C83", "title": "Switching the encryption feature", "statement": "A directory written by a plain build of the library and opened by a build with encryption (or the other way round) is not damaged and does not crash: the other build finds an empty store there that works as usual; sessions of the other build that only read change no byte of the data, and the original build finds everything afterwards; and neither do sessions that add other entries, or clear the directory, harm what the original build stores there.", "quantifier": "every history of either build, every switch after it, every further history of the other build, any cipher and keys", "why_tests_cant": "ranges over all histories before and after the switch and all ciphertexts; what can go wrong needs a full page or a checksum that is right by accident", "anchors": ["Cargo.toml: [features]", "src/core/mmkv_impl.rs: MmkvImpl::new", "src/core/crc.rs", "src/core/encrypt.rs", "src/core/config.rs: remove_file"]}
{"id": "C84", "title": "clear_data when the operating system refuses to remove a file", "statement": "When the operating system refuses to remove a store's files (a sticky directory, or one that only other users may write), clear_data harms nothing: the store is reopened, every entry that was there is still there, it goes on working like a map in this and every later session, and other stores are not touched. It also says so: a clear_data that answers Ok has emptied the store, and in an encrypted build what is written afterwards is encrypted under a new nonce.", "quantifier": "every history of calls and background work, any number of clear_data calls on any stores during which the data file, the nonce file or both cannot be removed, both builds", "why_tests_cant": "ranges over all histories before and after the refused removals", "anchors": ["src/core/config.rs: remove_file", "src/core/mmkv_impl.rs: clear_data", "src/mmkv.rs: clear_data", "src/core/encrypt.rs: StreamWrapper::init"]}
{"id": "C85", "title": "A directory that becomes read-only while a store is open", "statement": "When the write permission of a directory is taken away while a store in it is open, clear_data harms nothing: it does not panic, the store stays usable, no entry is lost (neither in this process nor for the next one, and what had not been written yet is written), and other stores are not touched.", "quantifier": "every history of calls and background work, every store open at its end, any number of handles, every further history of a later process, both builds", "why_tests_cant": "ranges over all histories and all pending background work; needs the permission to change between opening and clearing", "anchors": ["src/mmkv.rs: clear_data, resolve_file_path", "src/core/mmkv_impl.rs: clear_data", "src/core/config.rs: remove_file", "src/core/io_looper.rs: quit"]}
{"id": "C86", "title": "Closing a store releases everything", "statement": "A store's background thread, its open data file and its memory map exist only as long as some handle of the store does: whatever is called and whatever fails, there are never more of them than handles, and once the last handle is gone nothing of the store is left in the process - no thread, no open file, no map, and no entry in the library's table of open stores. While handles exist there is exactly one thread per directory, and a data file removed by clear_data is not kept open.", "quantifier": "every history of calls on any number of stores, with overlapping drops, panics, dead threads, failed opens and kills, both builds", "why_tests_cant": "leaks depend on the whole history and on how drops of several threads overlap", "anchors": ["src/mmkv.rs: Drop for MMKV, MMKV::new, clear_data", "src/core/io_looper.rs: Drop for IOLooper, quit", "src/core/memory_map.rs: Drop for MemoryMap"]}
{"id": "C87", "title": "A logger may itself use the library", "statement": "A logger given to set_logger may call the library while it is handed a line or destroyed: nothing deadlocks, every line - those caused by the logger included - is delivered exactly once, in order, to the logger installed at that point, and when the program stops logging the log thread comes to rest.", "quantifier": "every behaviour of the loggers, any number of threads logging, replacing the logger and changing the level, every interleaving with the log thread", "why_tests_cant": "feedback shows only in unbounded runs; deadlocks depend on the schedule", "anchors": ["src/log/logger.rs: LogWriter, format_log, set_logger", "src/core/io_looper.rs: Executor::new, post", "src/ffi/mod.rs: NativeLogger", "src/ffi/ffi_buffer.rs: leak, release"]}
{"id": "C88", "title": "The page size may change", "statement": "A store made on a system with one page size can be used on a system with another one, larger or smaller (a system update to 16 KiB pages, a directory copied to another machine): everything stored is found there, and the store goes on as a map through any number of such moves.", "quantifier": "every sequence of processes, each with any page size and any calls, closed or killed between two background jobs, both builds", "why_tests_cant": "a test run has one page size; the cases differ by sizes, histories and the moment of compaction", "anchors": ["src/core/memory_map.rs: page_size", "src/core/config.rs: Config::new, expand", "src/core/writer.rs: write (growth and rewrite loop)"]}
