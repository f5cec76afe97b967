# Formal model of bachan/coda — design

`/repo` holds the C/C++ utility library *coda*.  `/verif/rocq` holds a Rocq
(Coq 8.16.1) model of it and machine-checked proofs.  `properties.jsonl` lists
the properties (C01 …), `MANIFEST.json` says which theorem covers which property.

## 1. Method

* **One theory directory, one prefix per module.**
  `Base.v` has the shared vocabulary.  For a module `X`:
  `X_Model.v` (the code, function by function, each definition citing file and
  lines), `X_Spec.v` (the independent specification the theorems talk about),
  `X_Proof.v` (lemmas), `X_Props.v` (the property theorems, each closed by
  `exact`, a concrete non-vacuity `Example` beside it, `Print Assumptions` below).
* **Memory.**  A C buffer is a `list Z` of bytes (0..255); a pointer into it is an
  index.  Every read and write is bounds-checked: an access outside the buffer is
  the outcome `Ub OobRead` / `Ub OobWrite` and not a default value.  So
  "result = Ok …" contains memory safety, and because the result is the *whole*
  output buffer the theorem also contains the frame (untouched bytes unchanged).
* **Undefined behaviour** (null dereference, use after free, division by zero,
  reading uninitialised data) is the distinct outcome `Ub _`.
* **Loops** are structural recursion or fuel recursion with the explicit outcome
  `Fuel`; theorems prove `Ok`, so fuel is shown sufficient.
* **Machine integers** are `Z` with an explicit `mod 2^32` / `mod 2^64` wherever
  the C code can wrap; lengths of buffers are `nat` where no wrap is possible.
* **Environment** (malloc failures, system calls, clock, random numbers,
  vsnprintf) is a parameter (Section variable, closed at section end) or an
  explicit list of outcomes; never an axiom.
* **Concurrency** is a transition system whose steps are the atomic operations
  (system calls, or code between lock operations when mutual exclusion has been
  proved); theorems are invariants over all reachable states, for any number of
  processes.  Crashes are steps.
* **Refuted properties.**  Where the code does not have the property a user would
  expect, the theorem is named `…_refuted` and gives a concrete witness, and the
  strongest true variant is proved beside it (`…_partial` if it covers only part
  of the statement).

## 2. Plan per property

| id | modelled | proof |
|----|----------|-------|
| C01 | `coda_base64_encode`, `coda_base64_decode` on byte buffers | encode = RFC 4648 spec (induction by 3 bytes), decode spec inverts it |
| C02 | encode loop with every `--outlen` exit | loop invariant: written = firstn of spec |
| C03 | decode loop with every capacity check | loop invariant against a grammar of well-formed texts |
| C04 | size computation mod 2^64 | arithmetic |
| C05 | `decode_alloc` with malloc as a boolean | decoded length bound |
| C06–C08 | `web64_encode/decode` | same development, parametrised by alphabet where the code is the same, separate where it differs |
| C09, C10 | base58 digit loops | loop invariant: scratch array denotes the number; uniqueness of positional notation |
| C11 | scratch arrays with bounds-checked access | 256^100 <= 58^138, 58^1000 <= 256^733, lifted to all lengths |
| C12, C13 | return values | refutation witnesses + true variants |
| C14–C17 | search and span functions of string.c | induction over the buffer |
| C18 | `coda_atou`, `coda_atoi` | induction, mod 2^64 |
| C19–C25 | string.cpp, easy_parsing.cpp | induction; vsnprintf is a parameter with its C99 contract |
| C26–C34 | url.cpp | induction; finite sweep over 256 bytes lifted by forallb |
| C35–C41 | url_parser.cpp on a bounds-checked buffer | loop invariants; refinement to a segment-stack specification |
| C42–C46 | cache.tcc as hash table + heap nodes with prev/next pointers | refinement to an ordered association list |
| C47–C49 | synque.hpp as a thread transition system | invariants over all schedules |
| C50–C53 | shm_stack/pool/hash_map on arrays | representation invariant, refinement to finite map |
| C54–C56 | System V semaphores with SEM_UNDO as transition system | invariants, refutation trace for first connect |
| C57 | size computations | arithmetic |
| C58–C62 | shm_queue as transition system | invariants, refutation traces |
| C63–C65 | stringstorage.c | refutation witnesses by computation; partial positive theorem; layout invariant |
| C66–C68 | log_array.hpp, gmtime.h | arithmetic; finite sweep over one 400-year era lifted by periodicity |
| C69–C75 | socket.h, system.c, daemon.c, logger.c | induction; exhaustive over system call outcomes |
| C76, C77 | txml begin/end/character callbacks | induction over documents |
| C78 | vietnam.cpp | induction over code points; finite sweep over the letter tables |
| C79, C80 | url.cpp escape readers | induction over an escape grammar |
| C81–C83 | hash map stores interrupted at every step; parameters of attach | simulation of prefixes of runs; refutation traces |
| C84, C85 | queue with deaths inside sections, geometry mod 2^32 | refutation traces, invariant over executions with deaths, counting of interrupted locks, arithmetic; the sizes that break are exactly characterised |
| C86–C88 | enumeration and user data of the storage, fresh arrays | tree invariants |
| C89–C95 | timeouts, descriptors, mmap, log files, start-up order | weakest-precondition style lemmas per function over all answers of the kernel |
| C96–C99 | signal masks, option parsing, set-up of sockets, taking a pid file | induction over the table / argument list, weakest preconditions, invariants |
| C100, C101 | integer conversions of txml, arbitrary documents | arithmetic, induction over events |
| C102–C104 | memory of the storage and of the codecs, every request may fail | ownership invariant ("the heap holds exactly these blocks") over all histories |
| C105 | load_from_file/string over an abstract incremental parser | induction over the pieces |
| C106, C107 | connect/disconnect/destructor of the shared objects | weakest preconditions over all answers, invariants over histories |
| C108, C109 | progress of calls on the shared map and queue | well-founded order on the lists of process states, invariants of C54 and C58, an endless schedule as witness |
| C110–C112 | logger.h, logger.c, error.h, error.hpp | decimal numbers by induction, order of dates from the calendar of C67; invariant over histories of thread-specific data |
| C113, C114 | signals | induction over the list of signals; invariants over executions of a thread with handlers interrupting it |
| C115 | estimate_capacity.hpp | sizes of nested values |
| C116 | txml.cpp:143-145 with strtof, strtod and strtold | nearest value of a binary format stated in integers; existence and uniqueness for every fraction |
| C117-C118 | daemon.c:12-60 with getopt_long | a grammar of command lines; the calls on the array refine it, from any state between two arguments |
| C119 | synque.hpp with statements that throw | the steps of C47-C49 and one more; invariant that the mutex stays locked |
| C120 | cache.tcc with statements that throw | the cache with a debt is the cache without it, shifted; refinement to the ordered list with a debt |
| C121 | the decoders of base64.c and web64.c on one memory | simulation of the decoders with separate buffers |
| C122 | coda_urldec and coda_urlenc on one memory | induction over the text with the part already written, the part already read and the rest |
| C123, C124 | url_parser.cpp with 32-bit lengths and failing malloc | agreement with the model over natural numbers below 2^32, memory that already holds the longer text |
| C125–C127 | cache.tcc: pointers returned by get, values passed by reference, implicit copy and destructor, dbg text | per call: addresses of present keys do not change, freed addresses stay free; determinism of the specification |
| C128, C63 for single keys | stringstorage.c | the tree of nodes by induction over the search path, for all keys; invariant for the keys that are lonely among any others |
| C129 | socket.h with the address structures, inet_addr of glibc | induction over the parts of the address; link to the calls of `Fd_Model` |
| C130 | string.cpp and url.cpp with allocations that fail | induction over the pieces with the number of allocations made so far |
| C131 | shm_hash_map.hpp (iterators) with shm_hash_map.tcc (insert, erase) in loops of the user | invariant of the chains and of the place of the iterator in them; erase and insert with the chains they leave |
| C132 | txml.cpp and txml.hpp with places that throw | simulation of the load without exceptions up to the place that throws; induction over types, members, attributes, events and pieces |
| C133 | synque.hpp with its destructor | invariants over all schedules that count the adds and the elements on their way |
| C134 | the encoders of base64.c and web64.c on one memory | simulation of the encoders with separate buffers |
| C135 | url.cpp, string.cpp: the writers with the readers | composition of C19-C21, C26, C27, C30, C31 |
| C136 | shm_hash_map.tcc and shm_queue.tcc with store buffers; synque.hpp | simulation by the machine without buffers: only the process inside has stores on their way |
| C137 | shm_queue.tcc: connect_sem, connect_shm, together with flush and unflush | invariants of the semaphores, the segment and the count; refutations by executions |
| C138 | shm_queue.tcc: unflush with its arguments | the invariant of C58/C59 with the adjustments of SEM_UNDO |
| C139 | shm_queue.tcc: put, get, flush and unflush of whole objects in many processes | invariant that pairs the boxes of the ring with the items they carry, on top of C58; refutations by executions |
| C140 | random.c, random.h with several threads | invariants over all interleavings; refutations by executions |
| C141, C142 | logger.c log_create, logger.h log_rotate and log_fmt, system.c coda_mkpath, coda_fdopen, coda_fdmove with several threads, system call by system call | invariants over all interleavings (descriptors, texts of the paths); refutations by executions |
| C143 | synque.hpp with threads that are cancelled in pthread_cond_wait | the step relation of C47 with one more kind of step; the state in which a thread that has ended owns the mutex is stable |
| C144, C145 | ftok(3), connect_sem, connect_shm, attach, the locks of shm_hash_map.tcc and shm_queue.tcc under many keys | projection of executions to one key; counting invariants of the two semaphores per key; refutations by executions |
| C146, C147 | shm_hash_map and shm_queue objects that are copied and assigned (the compiler's members) | invariants over all histories of any number of objects; one object's life framed by the others; refutations by executions |
| C148 | shm_stack.tcc, shm_pool.tcc, shm_hash_map.tcc: where connect puts the tables, for values of any size and alignment | arithmetic of multiples; refutation by a witness |
| C149 | synque.hpp: threads that pass elements through a chain of queues | each queue is an execution of C47; invariant of what each thread carries; sums over the threads |
| C150 | synque.hpp: happens-before between add and get | the owner of the mutex at every step of C47's executions; invariant: between effects of two threads there is an unlock and a later lock |
| C151 | synque.hpp: stopping the threads that serve a queue | count of the stop elements given to each thread, from C47's protocol and FIFO order; number of sleepers decreases with each signal |
| C152 | daemon.c, gmtime.h: a main loop over the signal flags | invariant from the arrival of a signal on: its flag is set or its action is next; counting invariant for the converse |
| C153 | socket.h: coda_unix_send and coda_unix_recv in loops on a stream | invariant: received, on its way and left are together the data |
| C154 | daemon.c: coda_daemon_load, the command and the daemon as two processes | invariant on the programs left to run; refutations for all options |

## 3. Trusted base

* Coq 8.16.1's kernel (including `vm_compute`).
* Axioms: none; see section 5.
* The faithfulness of the hand-written model to the C/C++ text (citations in every
  definition), and the modelling conventions of section 1.
* The models of the environment: the kernel rules (`Fd_Model.kernel`, `Pid_Model`,
  `ShmSys_Model`, `ShmQ_Model`, `Life_Spec.possible`), POSIX mutex and condition
  (`Synque_Model`), `malloc`/`free` (`SHeap_Model`), `fread` and the incremental parser
  (`Load_Model`, `Load_Spec`), the C99 contract of `vsnprintf` (`StrCpp_Spec`).

As a check of the model against the code, `RepoTests.v` runs the test programs of the repository
(`tests/`: base58, cache, stringstorage, txml) on the model: every expected value of those tests
is what the model computes.  These are tests, not proofs, and no claim rests on them.

## 4. What is not modelled

Listed per source file in section 6.  In general: the text of log messages and of
exceptions, allocation failure of C++ containers outside `LoadX_Model`, `Oom_Model`,
`SynqueX_Model` and `CacheX_Model` (C119, C120, C130, C132), alignment of ordinary objects, strict
aliasing, reordering of loads by processors and compilers (concurrent modules run under
sequential consistency, one step per load, store or system call; C136 shows that delayed and
reordered stores make no difference and that there are no data races), locales other than "C",
hosts other than little-endian LP64.

## 5. Axioms

Every `*_Props.v` file runs `Print Assumptions` after each theorem.  For all of them Coq
prints *Closed under the global context*: no theorem depends on any axiom, and the
development declares none (no `Axiom`, `Parameter`, section-less `Variable` or
`Hypothesis`, no `Admitted`, no disabled guard, positivity or universe check).

`coqchk` on the whole set of loaded libraries also lists the axioms of standard-library
files that are loaded (through `lia` and its ssreflect plug-in files) but not used by any theorem:
`Coq.ssr.ssrunder.Under_rel.{Under_rel, Under_rel_from_rel, Under_relE, under_rel_done,
Over_rel, over_rel, over_rel_done}` — the members of the module type
`UNDER_REL` in the standard library.  They are of the standard library and appear in no
`Print Assumptions` output.

## 6. Modelled and not modelled, per source file

| source | model | not modelled |
|--------|-------|--------------|
| base58.c/.h | `Base58_Model` (all functions), `Own_Model` (every malloc/free) | — |
| base64.c/.h, web64.c/.h | `Base64_Model` (all functions), `B64At_Model` (decoding over the text), `B64Enc_Model` (encoding over the data), `Own_Model` | — |
| string.c, string.h | `Str_Model` (all functions) | locales other than "C" |
| string.cpp, easy_parsing.cpp | `StrCpp_Model` (all functions), `Oom_Model` (exceptions) | the text `vsnprintf` produces (a parameter with the C99 contract); exceptions in functions that return their result by value |
| url.cpp | `Url_Model` (all functions), `UrlAt_Model` (encoder and decoder on overlapping buffers), `Oom_Model` (exceptions) | exceptions in functions that return their result by value |
| url_parser.cpp/.hpp | `UrlP_Model` (parsing, normalisation, merging), `UrlO_Model` (life cycle), `Url32_Model` (32-bit lengths, malloc failure) | — |
| cache.hpp/.tcc | `Cache_Model` (all methods), `CacheX_Model` (exceptions from memory, keys and values), `CacheUse_Model` (returned pointers, references, implicit copies, dbg text) | hash function; estimate_capacity.hpp is in `Cap_Model` (here the size is an argument) |
| synque.hpp | `Synque_Model` (push, pop variants, any number of threads), `SynqueX_Model` (exceptions while elements are copied), `SynqueD_Model` (destruction), `SynqueK_Model` (threads that are cancelled while they wait), `SynqueP_Model` (chains of queues), `SynqueH_Model` (the steps that lock and unlock), `SynqueS_Model` (loops that serve a queue until told to stop), `Wmm_Model` (which steps touch the elements) | failing pthread calls |
| stringstorage.c/.h | `SStore_Model` (all functions), `SHeap_Model` (every calloc/realloc/free, each may fail, realloc may move the block or not) | — |
| log_array.hpp, gmtime.h | `Util_Model` | bad_alloc; element types other than numbers |
| shm_stack.tcc, shm_pool.tcc, shm_hash_map.tcc/.hpp | `Shm_Model` (contents, single loads and stores), `ShmSys_Model` (locks, connect, any number of processes, deaths), `ShmIter_Model` (loops of the user that change the map they walk over), `Key_Model` (keys, maps and queues side by side), `Wmm_Model` (delayed stores), `Life_Model` (one object's life, failures), `Copy_Model` (copies of objects), `ShmL_Model` (the layout for any value type) | element types with constructors; the contents, as opposed to the layout, for alignments above 4 |
| shm_queue.tcc/.hpp | `ShmQ_Model` (box, flush, unflush, registers, any number of processes, deaths), `ShmQC_Model` (connect among others), `ShmQU_Model` (flags and timeout of unflush), `ShmQE_Model` (whole objects: put and get with the local box over the ring), `Key_Model` (keys, maps and queues side by side), `Wmm_Model` (delayed stores), `Life_Model`, `Copy_Model` (copies of objects) | reset_queue (private and never called) |
| socket.h | `Net_Model` (addresses, timeouts, send, recv), `Stream_Model` (both ends of a connection), `Fd_Model` (listen, accept, connect), `Host_Model` (the addresses given to bind and connect, inet_addr of glibc) | — |
| system.c, random.c, random.h | `Fd_Model`, `Pid_Model` (pid file, any number of processes), `Rand_Model` (seeding, any number of threads), `Rot_Model` (mkpath, fdopen and fdmove with several threads) | the file system apart from the pid file and the names of log files |
| daemon.c | `Fd_Model` (fork, load, stop), `Daemon_Model` (options, signals), `Getopt_Model` (getopt_long on whole command lines), `Sig_Model` (installation and arrival of signals), `SigLoop_Model` (a main loop over the flags), `Start_Model` (the command and the daemon it starts) | usage text; the messages of getopt_long |
| logger.c/.h | `Daemon_Model` (level names), `Fd_Model` (log_create), `Log_Model` (log lines, macros, thread names), `Sig_Model` (the lock of localtime_r), `Rot_Model` (creation and rotation with several threads) | the caller's printf arguments (the formatted message is a parameter) |
| error.h, error.hpp | `Log_Model` | the caller's printf arguments |
| txml.cpp/.hpp | `Txml_Model` (handlers, all kinds of scalars), `Flt_Model` (strtof, strtod, strtold), `Load_Model` (files and texts), `LoadX_Model` (with exceptions) | expat itself (a parameter); how an exception passes through it |
| vietnam.cpp | `Viet_Model` (all) | — |
| estimate_capacity.hpp | `Cap_Model` | layouts other than libstdc++ on 64 bits |
| attr.h, coda.h, tests, packaging | — | declarations only / not modelled |

Restrictions inside a module are stated in the comment of the definition concerned.
