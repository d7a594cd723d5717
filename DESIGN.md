# Formal model of vmap-rs in Rocq (Coq 8.16.1)

## Shape of the development

All files are in `rocq/theories`.

* `*Model.v`: executable Gallina models, function by function, every definition
  citing the source lines it models.  No proofs.
* `Spec.v`, `*Spec.v`: specifications used in theorem statements, written
  without the functions of the models (only their types).
* `*Proofs.v`, `*Claims*.v`, `MapCreate.v`, `MapOps.v`, `RingTheorems.v`,
  `RingWeak.v`, `RingWitness.v`, `BufWeak.v`, `SpanMap.v`, `WinRetry.v`,
  `WinCalls.v`, `WinAlloc.v`, `WinThings.v`, `WinHist.v`, `WinLeak.v`: lemmas.
* `Properties*.v`: the property theorems (`exact lemma`), each with a concrete
  example that meets its hypotheses, and `Print Assumptions`.

A theorem called `…_partial` proves the property except for the cases named in
the comment above it and in the table below; `…_refuted` proves, with a
witness, that the property as stated is false of the code in these cases.

Machine integers are `Z` with an explicit word width (32 or 64) and explicit
overflow behaviour (`t_checks`: panic, or wrap as in release builds); all
theorems hold for both widths and both build modes unless they say otherwise.
The operating system is a state machine (`OsModel.v`): page table, memory
objects, descriptors, file names.  Every system call may be refused with any
code, and addresses, descriptor and port numbers are chosen by an arbitrary
list of answers that all theorems quantify over.  Inner readers and writers are
arbitrary scripts of answers, including ones that break the contracts of `Read`
and `Write`.

## Trusted base

* Coq's kernel.  No axiom is declared, no kernel check is switched off, nothing
  is admitted; no functor, module type or plugin is used.
* `Print Assumptions` lists nothing for any theorem (see the last section).
* The models are faithful to the source.  They were written by reading
  `/repo`; nothing was compiled or run.
* The assumed behaviour of what is not code of the crate, written down in
  comments where it is modelled:
  * the kernels: `OsModel.v` (POSIX), `MachModel.v` (Mach VM calls and ports),
    `WinModel.v` (sections, views, reservations);
  * `std`: `File`, `OpenOptions`, `Write::write_all`, `BufRead::read_until`,
    `Read::read_exact`, `Read for &[u8]`, `io::Error`;
  * the crates `system_error` (errno conversion) and `bytes`
    (`BufMut::put_slice`).

## What is modelled

| source | model |
|--------|-------|
| src/lib.rs 168-229 (enums), 240-283 (system info), 303-463 (`Size`), 467-608 (`Span`, `SpanMut`) | `MapModel.v`, `SysInfoModel.v`, `SizeModel.v`, `SpanModel.v` |
| src/map.rs: `Map`, `MapMut`, `Options`, all methods | `MapModel.v`; any history of calls, with acts of other processes (`OthersModel.v`) in between: `ApiModel.v`; the system calls of one call interleaved with others: `ThreadModel.v`; on Windows, with rings and histories: `WinMapModel.v`; interleaved: `WinThreadModel.v` |
| src/error.rs | `ErrorModel.v` |
| src/io/ring.rs, src/io/mod.rs, src/io/bytes.rs | `RingModel.v` (memory as a function); `MemRingModel.v` (the same code over loads and stores at addresses); provided methods of std and bytes: `StdModel.v`; creating and dropping: `RingMapModel.v`, `MachModel.v`, `WinModel.v`; programs with maps and rings: `ProcModel.v`, `WinProcModel.v`, `MachProcModel.v` |
| src/io/buffer.rs | `BufModel.v`; `DuplexModel.v` (nested wrappers, forwarding); `BufDirectModel.v` (the inner object used directly); `BufProgModel.v` (inside programs); provided methods of std: `BufStdModel.v` |
| src/os/unix/mod.rs | `MapModel.v` |
| src/os/unix/posix/mod.rs, memfd.rs | `RingMapModel.v` |
| src/os/unix/mach.rs | `MachModel.v` |
| src/os/windows.rs | `WinModel.v` |

## What is not modelled

* `Debug` implementations; `Deref`/`AsRef`/`AsMut` (they return the slice or the
  inner object).
* Vectored and formatted I/O through the forwarding `Write` of `BufReader` and
  `Read` of `BufWriter` (buffer.rs:152-179, 442-468).
* What UTF-8 is: `read_line` and `read_to_string` take an arbitrary validity
  predicate (`StdModel.v`, `BufStdModel.v`).  Vectored I/O on `BufReader` and
  `BufWriter` (std's default: `read` or `write` of the first buffer that is not
  empty).
* Concurrency, except for the system information cache (C05), for threads
  making maps and rings at the same time on POSIX (C91 to C93), macOS (C103,
  C104) and Windows (C97-C99; C32 for the Windows ring allocation with other
  processes' memory).  All other types need `&mut` for their mutating calls, or
  leave synchronisation to the kernel.
* Undefined behaviour of the language other than accesses outside the mapped
  memory, which the model makes explicit (`Fault`).
* Another process changing a file in the middle of one system call (between
  calls: `OthersModel.v`; between the system calls of one call:
  `ThreadModel.v`, `MachThreadModel.v` and `WinThreadModel.v`).  On Windows,
  that a mapped file cannot be shortened (the model lets the kernel refuse it, but also allow it).

## Defects of the code found this way

Each is a `…_refuted` theorem, or stated exactly in the theorem named.

| where | what | theorem |
|-------|------|---------|
| lib.rs:365 `Size::round` | overflows at the top of the word, wraps to 0 in release builds | `C01_round_exact` |
| lib.rs:442 `Size::count` | truncates to u32 | `C03_count_wide_refuted` |
| lib.rs:600 `assert_capacity` | wraps in release builds: out-of-bounds access from safe code | `C24_hole_refuted`, `C24_wrap_refuted` |
| map.rs:291 `into_map` | protects ReadWrite, so the pages stay writable | `C13_read_only_refuted` |
| map.rs:312-381 `*_range` | `off + len` wraps in release builds: other maps are touched | `C16_wrap_refuted`, `C71_wrap_refuted` |
| map.rs:409 `drop` | a zero-length map at an unaligned offset leaks its page | `C14_empty_map_refuted` |
| map.rs:1183 | file length truncated to 32 bits | `C06_wide_file_refuted` |
| map.rs:1230 `alloc` | sizes wrap in release builds | `C22_wrap_refuted` |
| map.rs:1243 | `Options::<MapMut>::default()` is read-only: stores fault | `C57_default_refuted` |
| map.rs:1184-1197 | `resize` compares with a length that may be out of date: `Min` can shorten, `Max` lengthen a file that others change meanwhile | `C91_min_refuted`, `C91_max_refuted` |
| map.rs:1184-1214 | a file cut between fstat and mmap gives a map whose loads are fatal | `C91_readable_refuted` |
| map.rs:1186 | shortening a mapped file makes reads fault | `C26_truncate_refuted` |
| os/unix/mod.rs:71 | `map_anon` read-only lacks MAP_ANON: always EBADF | `C23_readonly_refuted` |
| os/unix/mod.rs:163 | `WillNotNeed` (MADV_DONTNEED) discards the stores of copy maps | `C19_will_not_need_refuted` |
| io/ring.rs:103, 117 | positions truncated to 32 bits before the remainder; without overflow checks they also wrap at 2^64: fatal for every capacity that does not divide the word | `C34_ring_32bit_refuted`, `C80_ring_exact_iff`, `C36_store_32bit_refuted` |
| io/ring.rs:276 `InfiniteRing::feed` | `rlen + n` overflows | `C43_feed_refuted` |
| io/buffer.rs:425-427 `BufWriter::write` | a write that exactly fills the free space overtakes the buffered bytes | `C48_order_refuted` |
| os/unix/posix/memfd.rs:40 | a clock before 1970 panics | `C56_epoch_refuted` |
| os/unix/posix/memfd.rs:57 | the result of `shm_unlink` is ignored: if it fails, other processes can reach the ring's memory by name | `C88_named_memory_refuted` |
| os/unix/mach.rs:79-131 | the memory-entry port is never released; `2 * len` wraps | `C31_ports_refuted`, `C83_ports`, `C31_huge_refuted`, `C31_unaligned_refuted` |
| os/windows.rs:192 `unmap` | result inverted | `C33_unmap_refuted` |
| os/windows.rs:215 `unmap_ring` | second result ignored | `C63_unmap_ring` |
| map.rs:409 `drop` on Windows | a zero-length map (which shows the rest of the file, see C61) keeps its view for ever | `C66_empty_refuted` |
| os/windows.rs `protect` | into_map_mut of a read-only map fails although the file is writable | `C69_writable_file_refuted` |
| os/windows.rs `flush` | a range of length 0 hands over the rest of the view (Win32 semantics) | `C62_flush` |

## Mutation tests

`seeded/LOG.jsonl` has one line per wrong program tried: the definition edited,
the edit, the claim it breaks, the theorems that no longer prove, and the
theorems tightened because of it.

## Per property: what is modelled, how it is proved

| id | status | model | proof, and what is missing |
|----|--------|-------|------|
| C01 Size::round is the least multiple at or above the length | proved | `SizeModel.v` (lib.rs:303-463) | Bit-mask lemmas for powers of two, then division arithmetic; specification in `Spec.v` (least/greatest multiple). Exact result on every input, including the overflow edge. |
| C02 Size::truncate and Size::offset split a position | proved | `SizeModel.v` (lib.rs:303-463) | Bit-mask lemmas for powers of two, then division arithmetic; specification in `Spec.v` (least/greatest multiple). |
| C03 Size::count and Size::size are inverse unit conversions | proved | `SizeModel.v` (lib.rs:303-463) | Bit-mask lemmas for powers of two, then division arithmetic; specification in `Spec.v` (least/greatest multiple). Exact on every input; the refuted theorem exhibits the u32 truncation outside the stated range. |
| C04 Size::bounds is the tightest unit-aligned cover of a range | proved | `SizeModel.v` (lib.rs:303-463) | Bit-mask lemmas for powers of two, then division arithmetic; specification in `Spec.v` (least/greatest multiple). |
| C05 page_size() and allocation_size() are race free | proved | `SysInfoModel.v` (lib.rs:240-283): threads, relaxed atomic cells | Invariant over all schedules and load results. Any number of threads and any interleaving; loads may return any value C11 coherence allows. |
| C06 The length of a file mapping follows the requested extent | partial | `MapModel.v` (map.rs:1067-1219) over `OsModel.v` | Symbolic run of `map_if`; specification tables in `MapSpec.v`. Complete when the file length fits the word (always on 64 bits). On 32 bits the length is truncated (refuted). An empty rest at a page-aligned offset is an OS error (EINVAL), neither None nor a map. |
| C07 A mapping shows exactly the requested bytes of the file | proved | `MapModel.v` (map.rs:1067-1219) over `OsModel.v` | Symbolic run of `map_if`; specification tables in `MapSpec.v`. |
| C08 map()/open() agree with map_if()/open_if() | proved | `MapModel.v` (map.rs:1067-1219) over `OsModel.v` | Symbolic run of `map_if`; specification tables in `MapSpec.v`. |
| C09 resize and truncate change the file exactly as documented | proved | `MapModel.v` (map.rs:1067-1219) over `OsModel.v` | Symbolic run of `map_if`; specification tables in `MapSpec.v`. For file lengths that fit the word (always on 64 bits). |
| C10 A writable file map writes through to the file | proved | `load`/`store` through the page table | Invariant over histories (`ApiModel.v`, `ApiProofs.v`), frame lemmas. POSIX targets (allocation granularity = page size), any history of calls, any kernel answers.  |
| C100 Buffered readers and writers inside programs, over any inner object | proved | the same model as C95; `BufProgAnySpec.v` | The programs agree with `BufModel.v` from the invariant of C59 alone (`BufProgWeak.v`: positions apart by at most the capacity, no bound on them), or end with the panic of the object alone; a ring call of a process that panics leaves the ring usable (`BufProgAny.v`) No bound on positions and nothing assumed of the inner object but that reported counts are values of usize. What the object alone guarantees then is C59. |
| C101 Other processes on Windows | proved | `OthersModel.v` on the state of Windows (`wothers`, `WinMapModel.v`): acts of other processes as steps of every history and of every interleaving of `WinThreadModel.v` | Each act is one more step of the proofs of C66-C79, C85, C95-C100 (`WinOthers.v`: what it keeps); a map of the program, seen alone, is a map of `ApiModel.v`, so the exact values of loads are those of C88 (`WinOthersClaims.v`); memory without a name is reached by nobody. Every interleaving of the threads, with calls in progress. Windows refuses to shorten a mapped file; the model lets others do it all the same. |
| C102 Every access to a map on Windows is decided | proved | `WinMapModel.v`, `WinThreadModel.v`, `SpanModel.v` (scalars) | Invariant: a writable page is one its section allows to write, kept by every system call, stage of a call, ring call and act of others (`WinDecided.v`); with the maps of the program in place (C97) each access is computed; loads and scalars as in C89 by the translation of C101; anonymous maps whose size wraps: each wrapped sum computed, view from the answers (`WinAllocWraps.v`) The counterpart of C89 on Windows, over every interleaving. C102_range: for wrapped ranges that begin at or behind the second page of the address space (those that fit: C71). C102_alloc: anonymous maps whose size wraps (those that fit: C65). |
| C103 Calls in progress on macOS: answers, bounds and isolation under every interleaving | partial | `MachThreadModel.v`: a ring allocation of mach.rs as a sequence of stages, one kernel call each; maps as in `ThreadModel.v` | The stages run alone are the call of `MachProcModel.v` (`MachThreadClaims.v`); an invariant over all interleavings in which each stage knows the pages and the memory entry it has (`MachThreadProofs.v`, `MachThreadInv.v`); steps that are no ring stage are those of C91 and C92; induction over the events (`MachThreadClaims2.v`; any length, and the converse: `MachThreadExact.v`) The counterpart of C91 and C92 on macOS. Without overflow checks, rings above half of the address space are excluded (C31). All but the ring answers: every interleaving. The ring answers: Histories of any length: the _exact_iff theorems say exactly for which capacities (rounded-up hints) the ring is a queue for ever, and that for all others some program (or interleaving) sees wrong bytes. The _partial theorems cover the histories of the latter whose stream position fits the word. |
| C104 What calls in progress leave behind on macOS: no memory, no descriptor, every memory entry | proved | the same model; `MachThreadLedgerSpec.v` says who answers for a page, a descriptor, a memory entry | Which pages each stage adds and gives up, exactly, by a case analysis of the kernel calls (`madv_exact` in `MachThreadLedger.v`); steps that are no ring stage by the per-step lemma of C93 The counterpart of C93 on macOS. Without overflow checks, rings above half of the address space are excluded (C31). |
| C105 No memory becomes executable unasked, and none writable and executable at once | proved | all models of calls, stages and kernels (`ThreadModel.v`, `MachThreadModel.v`, `WinThreadModel.v`); `ExecSpec.v` defines the relation between two address spaces and which options an event carries | A reflexive and transitive relation on address spaces, kept by every kernel call whose protection is allowed, by every function of the crate (`ExecProofs.v`, `ExecWin.v`) and so, by induction, by every interleaving; the two claims are instances. The code of rings keeps every such relation that a store keeps.; for new maps on Windows the relation is instantiated with the protection asked for, conversions: `WinConvert.v` Exact permissions of new maps: C105_made (POSIX), C105_made_windows; of converted maps: C12_into_map_mut (POSIX), C105_converted_windows. Like into_map_mut, into_map asks for reading and writing (C13). |
| C106 The os module called directly on POSIX: the page table is what the answers say | proved | `OsLayerModel.v`: programs of direct calls of the functions of src/os/unix/mod.rs (as modelled in `MapModel.v`) with stores in between; `OsLayerSpec.v`: which pages a range touches, and the page table read off from the answers alone | Induction over the program; each call changes the page as its answer says (`OsLayerProofs.v`). The single-call theorems follow from the kernel lemmas; the refuted one has a witness. The refuted theorem shows that protect(ReadCopy) leaves a shared view shared. What other processes do in between is not part of these histories (C100 and before). |
| C107 The os module called directly on Windows: pages and views are what the answers say | proved | `WinOsModel.v`: programs of direct calls of the functions of src/os/windows.rs (`WinModel.v`) with stores in between; `WinOsSpec.v`: pages with the base of their view, read off from the answers alone | Induction over the program; the table is kept by each call (`WinOsProofs.v`), from the kernel lemmas behind C61-C64; exact conditions of success in `WinOsGrants.v`. The refuted theorem: unmap ignores its length. Single calls: C33, C61-C64. A file mapped with length 0 (the rest of the file) is not part of these histories (C61). |
| C108 The inner object replaced: nothing buffered is lost, and nothing goes elsewhere than to the next object | partial | `BufReplaceModel.v`: a list of sessions, each with an inner object and a history as in C94; the ring stays | `BufReplaceSpec.v` says which pieces each object gave or got; the invariants of C44 and C47 hold again after a replacement (they speak of the ring, and of the new object only its script), so induction over the sessions with the laws of C94 (`BufReplaceProofs.v`). Covered: histories whose stream position fits the word (every history of fewer than 2^64 bytes on 64-bit, of fewer than 2^32 on 32-bit), and any history without overflow checks where the capacity divides the word; the rest is false (C34_ring_32bit_refuted; C84 gives the exact conditions for histories of any length). |
| C109 The os module called directly on POSIX, with rings: the page table, and the mirror for ever | proved | `OsRingModel.v`: histories of the calls of C106, `map_ring` and `unmap_ring`, each allocation with its own clock | `OsRingSpec.v` reads the page table off the answers and says what unmaps a page; every call keeps object, index and sharing of pages it does not unmap (`OsRingProofs.v`), so the two views of a ring stay views of the same object; induction over the history with the specifications of C27, C28 and C106. Answers, errors and contents of a new ring: C27, C28. |
| C11 A copy map never changes the file | proved | `load`/`store` through the page table | Invariant over histories (`ApiModel.v`, `ApiProofs.v`), frame lemmas. POSIX targets (allocation granularity = page size), any history of calls, any kernel answers.  |
| C110 The os module called directly on macOS, with rings: the page table, and the mirror for ever | proved | `MachRingModel.v`: histories of the calls of C106 and the `map_ring` and `unmap_ring` of mach.rs | As C109, with the specification of C31 for the allocation and of `vm_deallocate` for any address (`MachRingProofs.v`). Answers, errors, ports and contents of a new ring, and lengths that are not whole pages or too large: C31. |
| C111 The os module called directly on Windows, with rings: pages and views are what the answers say, and the mirror for ever | proved | `WinOsRingModel.v`: histories of the calls of C107 and the `map_ring` and `unmap_ring` of windows.rs, each with the kernel calls it made | Induction over the history: the allocation and the release keep the table of pages and views of C107 (`WinOsRingProofs.v`); every call keeps all views but those it unmaps, their objects and sizes, so that both halves still show one object (`WinOsRingMirror.v`). The page table assumes that no VirtualFree or UnmapViewOfFile fails while a ring is made (the code ignores such failures: C32); the mirror does not. That success of unmap_ring means that the whole ring is gone is refuted. Contents of a new ring, and what is left of a failed one: C32, C63. |
| C12 into_map_mut() succeeds exactly when writing is allowed | proved | `into_map_mut`, `into_map` (map.rs:101-107, 289-295) | Page-range lemmas over `mprotect`. POSIX targets (allocation granularity = page size), any history of calls, any kernel answers.  |
| C13 into_map() yields a read-only mapping | partial | `into_map_mut`, `into_map` (map.rs:101-107, 289-295) | Page-range lemmas over `mprotect`. Address, length and content are kept, but the pages are left writable in every case: into_map protects with ReadWrite (map.rs:291). |
| C14 Dropping a map releases exactly its own pages | partial | `drop_map` (map.rs:409-418) | `Size::bounds` of the map equals the pages mapped at creation. Proved for every map of non-zero length. A zero-length map at an unaligned offset leaks its page. |
| C15 Maps do not interfere over any history | partial | `ApiModel.v`: every call of the API on any number of maps | Invariant by induction over histories. Any history. Without overflow checks, calls whose off + len wraps are excluded (see C16_wrap_refuted). |
| C16 Sub-range operations are bounds checked | partial | `*_range` (map.rs:312-381) | Arithmetic on bounds; exact. Exact when off + len fits or overflow checks are on (then a panic). In release builds a wrapping off + len is accepted and works on other maps (refuted). |
| C17 Sub-range operations touch only pages of the map that meet the range | proved | `*_range` (map.rs:312-381) | Arithmetic on bounds; exact. POSIX targets (allocation granularity = page size), any history of calls, any kernel answers.  |
| C18 A synchronous flush is durable at every later crash point | proved | page cache and storage per object, write-back at any time | Invariant over later events. Any later history, with kernel write-backs at any time. A byte cut off by a later truncation and grown again reads 0. |
| C19 advise() is only a hint | partial | `madvise`, `mlock`, `munlock` | Frame lemmas. False for WillNotNeed on a copy map (stores are discarded); proved in all other cases. |
| C20 lock and unlock affect exactly the right pages | proved | `madvise`, `mlock`, `munlock` | Frame lemmas. POSIX targets (allocation granularity = page size), any history of calls, any kernel answers.  |
| C21 The file handle is never retained | proved | descriptor table, `open`, `open_if` | Exact effect on descriptors for every outcome. POSIX targets (allocation granularity = page size), any history of calls, any kernel answers.  |
| C22 Anonymous allocation gives a zeroed region of the right size | partial | `alloc` (map.rs:1230-1240) | Page-table reasoning. MapMut::new: complete. Options::alloc: in release builds sizes close to 2^64 wrap (refuted; C89_alloc says what such a map is). |
| C23 Every map can be allocated anonymously | partial | `alloc` (map.rs:1230-1240) | Page-table reasoning. Read-only anonymous maps always fail with EBADF (MAP_ANON is missing). |
| C24 Scalar accessors are bounds checked | partial | `SpanModel.v` (lib.rs:467-608) | Encodings round-trip; memory abstract (slice or kernel). Exact when overflow checks are on or offset+size stays below the word size. In release builds assert_capacity (lib.rs:600) wraps for offsets in the last size_of::<T>() bytes of the address space: the access goes through (C24_hole_refuted for every span and type, C24_wrap_refuted writes into another map). |
| C25 Scalar writes read back and touch nothing else | proved | `SpanModel.v` (lib.rs:467-608) | Encodings round-trip; memory abstract (slice or kernel). Slices and live maps, all scalar types, both byte orders, any alignment table. Floats are their bit patterns. |
| C26 Maps stay readable for their whole life | partial | `ApiModel.v`: every call of the API on any number of maps | Invariant by induction over histories. Any history in which no call asks for a file to be shortened; shortening a mapped file faults (refuted). |
| C27 A ring allocation is mirrored | proved | `RingMapModel.v` (os/unix/posix, io/ring.rs) | Symbolic run for every failure point; mirror lemma on the page table. Over the page-table model of the kernel, every length (others than page multiples fail), every address, both kinds of memory files; C27_ring_memory links it to the memory the ring model computes with. |
| C28 Ring allocation leaks nothing | proved | `RingMapModel.v` (os/unix/posix, io/ring.rs) | Symbolic run for every failure point; mirror lemma on the page table. The cleanup munmap (and shm_unlink) results are ignored by the code: if the kernel refuses those too, the reservation (or the name) stays, and the theorem says so. |
| C29 Dropping a ring frees its whole address range | proved | `RingMapModel.v` (os/unix/posix, io/ring.rs) | Symbolic run for every failure point; mirror lemma on the page table. If the kernel refuses the munmap of the drop, the ring stays mapped and nothing is reported; the theorem says so. |
| C30 A ring's capacity is the rounded hint | proved | `RingMapModel.v` (os/unix/posix, io/ring.rs) | Symbolic run for every failure point; mirror lemma on the page table. |
| C31 macOS ring allocation leaks nothing | partial | `MachModel.v` (os/unix/mach.rs) with ports | As C27-C30. The failing stage is named, the address space is restored and success adds exactly 2N mirrored addresses, for every multiple of the page size below half the address space. False in the code: the port of the memory entry is never deallocated (every ring leaks one, also when the last call fails); without overflow checks 2 * len wraps for lengths of half the address space; for lengths that are no multiple of the page size a neighbouring page can be overwritten. |
| C32 Windows ring allocation is bounded and leaks nothing | proved | `WinModel.v` (os/windows.rs) with handles, views, reservations, other threads | Exact specification of every function; induction over the retry loop. Every length, kernel and interference of other threads. The results of VirtualFree and of the UnmapViewOfFile of a lost attempt are ignored by the code: if the kernel refuses one of them its pages stay, and the theorem says so. |
| C33 Windows unmap reports success as success | partial | `WinModel.v` (os/windows.rs) with handles, views, reservations, other threads | Exact specification of every function; induction over the retry loop. False of the code: the comparison at windows.rs:192 is inverted. C33_inverted states what os::unmap returns for every outcome: Err exactly when the view was unmapped. |
| C34 Ring is an exact bounded FIFO | partial | `RingModel.v` (io/ring.rs, io/mod.rs, io/bytes.rs) | Refinement of a bounded queue (`RingSpec.v`) over every history; weak invariant (`RingWeak.v`) without restrictions. Refinement of a bounded queue over every history. Every history, of any length, is covered where the capacity divides the word or the target is 64-bit with overflow checks (the _exact theorems, which also say exactly when the checks panic); C80_ring_exact_iff and C80_infinite_exact_iff show that no other capacity qualifies. For the others (see C34_ring_32bit_refuted) the _partial theorems cover the histories whose position fits the word. |
| C35 Ring accounting | proved | `RingModel.v` (io/ring.rs, io/mod.rs, io/bytes.rs) | Refinement of a bounded queue (`RingSpec.v`) over every history; weak invariant (`RingWeak.v`) without restrictions. Every history, every target; feed panics only when the position counter itself would pass 2^64 with overflow checks on. |
| C36 Ring slices are contiguous, in bounds and disjoint | partial | `RingModel.v` (io/ring.rs, io/mod.rs, io/bytes.rs) | Refinement of a bounded queue (`RingSpec.v`) over every history; weak invariant (`RingWeak.v`) without restrictions. Bounds and lengths: every history. Privacy: Every history, of any length, is covered where the capacity divides the word or the target is 64-bit with overflow checks (the _exact theorems, which also say exactly when the checks panic); C80_ring_exact_iff and C80_infinite_exact_iff show that no other capacity qualifies. For the others (see C34_ring_32bit_refuted) the _partial theorems cover the histories whose position fits the word. |
| C37 write_all on a Ring fits or fails with the prefix stored | partial | `RingModel.v` (io/ring.rs, io/mod.rs, io/bytes.rs) | Refinement of a bounded queue (`RingSpec.v`) over every history; weak invariant (`RingWeak.v`) without restrictions. Every history, of any length, is covered where the capacity divides the word or the target is 64-bit with overflow checks (the _exact theorems, which also say exactly when the checks panic); C80_ring_exact_iff and C80_infinite_exact_iff show that no other capacity qualifies. For the others (see C34_ring_32bit_refuted) the _partial theorems cover the histories whose position fits the word. |
| C38 Ring::clear empties the ring for good | partial | `RingModel.v` (io/ring.rs, io/mod.rs, io/bytes.rs) | Refinement of a bounded queue (`RingSpec.v`) over every history; weak invariant (`RingWeak.v`) without restrictions. Later histories without bare feed (which exposes stale bytes). Every history, of any length, is covered where the capacity divides the word or the target is 64-bit with overflow checks (the _exact theorems, which also say exactly when the checks panic); C80_ring_exact_iff and C80_infinite_exact_iff show that no other capacity qualifies. For the others (see C34_ring_32bit_refuted) the _partial theorems cover the histories whose position fits the word. |
| C39 Line reading over a Ring | partial | `RingModel.v` (io/ring.rs, io/mod.rs, io/bytes.rs) | Refinement of a bounded queue (`RingSpec.v`) over every history; weak invariant (`RingWeak.v`) without restrictions. Every history, of any length, is covered where the capacity divides the word or the target is 64-bit with overflow checks (the _exact theorems, which also say exactly when the checks panic); C80_ring_exact_iff and C80_infinite_exact_iff show that no other capacity qualifies. For the others (see C34_ring_32bit_refuted) the _partial theorems cover the histories whose position fits the word. |
| C40 Ring honours the bytes::Buf/BufMut contracts | partial | `RingModel.v` (io/ring.rs, io/mod.rs, io/bytes.rs) | Refinement of a bounded queue (`RingSpec.v`) over every history; weak invariant (`RingWeak.v`) without restrictions. Every history, of any length, is covered where the capacity divides the word or the target is 64-bit with overflow checks (the _exact theorems, which also say exactly when the checks panic); C80_ring_exact_iff and C80_infinite_exact_iff show that no other capacity qualifies. For the others (see C34_ring_32bit_refuted) the _partial theorems cover the histories whose position fits the word. |
| C41 InfiniteRing keeps exactly the most recent bytes | partial | `RingModel.v` (InfiniteRing) | Refinement of a lossy queue, and of a list machine. Every history, of any length, is covered where the capacity divides the word or the target is 64-bit with overflow checks (the _exact theorems, which also say exactly when the checks panic); C80_ring_exact_iff and C80_infinite_exact_iff show that no other capacity qualifies. For the others (see C34_ring_32bit_refuted) the _partial theorems cover the histories whose position fits the word. |
| C42 Oversized InfiniteRing writes | partial | `RingModel.v` (InfiniteRing) | Refinement of a lossy queue, and of a list machine. Every history, of any length, is covered where the capacity divides the word or the target is 64-bit with overflow checks (the _exact theorems, which also say exactly when the checks panic); C80_ring_exact_iff and C80_infinite_exact_iff show that no other capacity qualifies. For the others (see C34_ring_32bit_refuted) the _partial theorems cover the histories whose position fits the word. |
| C43 InfiniteRing::feed never fails | partial | `RingModel.v` (InfiniteRing) | Refinement of a lossy queue, and of a list machine. Exact for every count: fails exactly when readable + n overflows 64 bits. |
| C44 BufReader delivers the stream unchanged | partial | `BufModel.v` (buffer.rs:34-191) | Invariant over scripts of the inner reader and call histories. Every source behaviour and call history. Covered: histories whose stream position fits the word (every history of fewer than 2^64 bytes on 64-bit, of fewer than 2^32 on 32-bit), and any history without overflow checks where the capacity divides the word; the rest is false (C34_ring_32bit_refuted; C84 gives the exact conditions for histories of any length). |
| C45 BufReader asks the inner reader only when needed | proved | `BufModel.v` (buffer.rs:34-191) | Invariant over scripts of the inner reader and call histories. No restriction on history length or source behaviour. |
| C46 BufReader reports end of input only at the end | proved | `BufModel.v` (buffer.rs:34-191) | Invariant over scripts of the inner reader and call histories. No restriction on history length or source behaviour. |
| C47 BufWriter never loses or duplicates bytes | partial | `BufModel.v` (buffer.rs:223-499) | Invariant over scripts of the inner writer and call histories. Multiset equality at every point of every history. Covered: histories whose stream position fits the word (every history of fewer than 2^64 bytes on 64-bit, of fewer than 2^32 on 32-bit), and any history without overflow checks where the capacity divides the word; the rest is false (C34_ring_32bit_refuted; C84 gives the exact conditions for histories of any length). |
| C48 BufWriter preserves order | partial | `BufModel.v` (buffer.rs:223-499) | Invariant over scripts of the inner writer and call histories. False as stated: a write that exactly fills the free space of a non-empty buffer is sent before the buffered bytes. Proved: it happens in every such case, and order holds in all other histories. Covered: histories whose stream position fits the word (every history of fewer than 2^64 bytes on 64-bit, of fewer than 2^32 on 32-bit), and any history without overflow checks where the capacity divides the word; the rest is false (C34_ring_32bit_refuted; C84 gives the exact conditions for histories of any length). |
| C49 BufWriter::flush delivers everything | partial | `BufModel.v` (buffer.rs:223-499) | Invariant over scripts of the inner writer and call histories. Covered: histories whose stream position fits the word (every history of fewer than 2^64 bytes on 64-bit, of fewer than 2^32 on 32-bit), and any history without overflow checks where the capacity divides the word; the rest is false (C34_ring_32bit_refuted; C84 gives the exact conditions for histories of any length). |
| C50 BufWriter::into_inner flushes or hands everything back | partial | `BufModel.v` (buffer.rs:223-499) | Invariant over scripts of the inner writer and call histories. Covered: histories whose stream position fits the word (every history of fewer than 2^64 bytes on 64-bit, of fewer than 2^32 on 32-bit), and any history without overflow checks where the capacity divides the word; the rest is false (C34_ring_32bit_refuted; C84 gives the exact conditions for histories of any length). |
| C51 BufWriter::into_parts and panics | proved | `BufModel.v` (buffer.rs:223-499) | Invariant over scripts of the inner writer and call histories. Every history of the ring and of the writer, every inner writer, also one that breaks its contract. |
| C52 Dropping a BufWriter attempts delivery | partial | `BufModel.v` (buffer.rs:223-499) | Invariant over scripts of the inner writer and call histories. Covered: histories whose stream position fits the word (every history of fewer than 2^64 bytes on 64-bit, of fewer than 2^32 on 32-bit), and any history without overflow checks where the capacity divides the word; the rest is false (C34_ring_32bit_refuted; C84 gives the exact conditions for histories of any length). |
| C53 Errors keep their cause and operation | proved | `ErrorModel.v` (error.rs) | Case analysis against `ErrorSpec.v`. Behaviour of std::io::Error and system_error::Error is assumed as described in ErrorModel.v. |
| C54 Error messages identify the operation | proved | `ErrorModel.v` (error.rs) | Case analysis against `ErrorSpec.v`. For whatever texts std and system_error print. |
| C55 Option builder calls compose | proved | option setters (map.rs:517-1033) | Algebra over lists of setter calls. |
| C56 Temporary shared-memory names are valid | partial | `RingMapModel.v` (memfd.rs:33-61) | Decimal formatting lemmas; loop over kernel answers. A system clock before 1970 panics (unwrap of duration_since); proved for every later clock. |
| C57 A MapMut is always writable | partial | `ApiModel.v`: every call of the API on any number of maps | Invariant by induction over histories. Any history without shortened files in which MapMut builders start from MapMut::with_options; Options::<MapMut>::default() is read-only and stores fault (refuted). |
| C58 Every reported failure names the right operation | proved | all error paths of map.rs and the ring allocation | Case analysis of every call in every state. Every call of the mapping API in every state, every stage of ring allocation. |
| C59 Misbehaving inner objects cannot break memory safety | proved | `BufModel.v` | Weak invariant that misbehaving inner objects keep (`BufWeak.v`). |
| C60 BufReader read_until and read_exact | partial | `BufModel.v` (buffer.rs:34-191) | Invariant over scripts of the inner reader and call histories. Covered: histories whose stream position fits the word (every history of fewer than 2^64 bytes on 64-bit, of fewer than 2^32 on 32-bit), and any history without overflow checks where the capacity divides the word; the rest is false (C34_ring_32bit_refuted; C84 gives the exact conditions for histories of any length). |
| C61 Windows views: one per map, no handle kept | proved | `WinModel.v` (os/windows.rs) with handles, views, reservations, other threads | Exact specification of every function; induction over the retry loop. A length of 0 maps the rest of the file (Win32 semantics), as stated. |
| C62 Windows flush is durable | proved | `WinModel.v` (os/windows.rs) with handles, views, reservations, other threads | Exact specification of every function; induction over the retry loop. FlushFileBuffers needs a descriptor with write access; the theorem shows it. |
| C63 Windows rings are released as a whole | proved | `WinModel.v` (os/windows.rs) with handles, views, reservations, other threads | Exact specification of every function; induction over the retry loop. The result of the second UnmapViewOfFile is ignored (windows.rs:215): if the kernel refuses it the first view stays mapped and Ok is returned; the theorem says so. |
| C64 Windows page operations touch exactly the pages asked for | proved | `WinModel.v` (os/windows.rs) with handles, views, reservations, other threads | Exact specification of every function; induction over the retry loop. ReadCopy is applied as PAGE_READWRITE. |
| C65 Windows: making a map | proved | `WinMapModel.v` (map.rs and Ring over `WinModel.v`) | Invariant by induction over histories (`WinHist.v`, `WinLeak.v`); each call by refinement of `WinSpec.v`. alloc: for sizes that fit the word, or with overflow checks; without them sizes wrap as on the other systems (C22). |
| C66 Windows: dropping a map releases exactly its view | partial | `WinMapModel.v` (map.rs and Ring over `WinModel.v`) | Invariant by induction over histories (`WinHist.v`, `WinLeak.v`); each call by refinement of `WinSpec.v`. Proved for maps of at least one byte. False for maps of no bytes, which have a view that is never unmapped. |
| C67 Windows: maps and rings do not interfere | proved | `WinMapModel.v` (map.rs and Ring over `WinModel.v`) | Invariant by induction over histories (`WinHist.v`, `WinLeak.v`); each call by refinement of `WinSpec.v`. |
| C68 Windows: nothing is left behind | partial | `WinMapModel.v` (map.rs and Ring over `WinModel.v`) | Invariant by induction over histories (`WinHist.v`, `WinLeak.v`); each call by refinement of `WinSpec.v`. Proved for histories in which no map of no bytes is dropped (C66_empty_refuted shows that this is needed). |
| C69 Windows: into_map_mut | partial | `WinMapModel.v` (map.rs and Ring over `WinModel.v`) | Invariant by induction over histories (`WinHist.v`, `WinLeak.v`); each call by refinement of `WinSpec.v`. False in the code: the section and view are created with the protection of the Options, so VirtualProtect refuses more. C69_into_map_mut gives the exact condition. |
| C70 Windows: a synchronous flush through a map is durable | proved | `WinMapModel.v` (map.rs and Ring over `WinModel.v`) | Invariant by induction over histories (`WinHist.v`, `WinLeak.v`); each call by refinement of `WinSpec.v`. The caller passes the file; the theorem is about calls that pass a descriptor of the mapped file. |
| C71 Windows: calls on part of a map | partial | `WinMapModel.v` (map.rs and Ring over `WinModel.v`) | Invariant by induction over histories (`WinHist.v`, `WinLeak.v`); each call by refinement of `WinSpec.v`. The range check is exact when off + len fits or overflow checks are on; in release builds a wrapping off + len works on other maps (refuted). |
| C72 Windows: opening and mapping files, MapMut::new | proved | `WinMapModel.v` (map.rs and Ring over `WinModel.v`) | Invariant by induction over histories (`WinHist.v`, `WinLeak.v`); each call by refinement of `WinSpec.v`. C72_new is in PropertiesWinDecided.v: a hint whose size wraps never succeeds. |
| C73 Windows: errors name the operation | proved | `WinMapModel.v` (map.rs and Ring over `WinModel.v`) | Invariant by induction over histories (`WinHist.v`, `WinLeak.v`); each call by refinement of `WinSpec.v`. |
| C74 Rings in a program: the answers of a queue, end to end | partial | `ProcModel.v`: one program with maps (`ApiModel.v`) and rings (`MemRingModel.v`: the ring code over loads and stores of `OsModel.v`) | Simulation of `RingModel.v` by the code on memory (`MemRingProofs.v`), frame lemmas for every system call (`ProcFrame.v`), invariant by induction over programs (`ProcProofs.v`, `ProcPages.v`). Any length: `ProcExact.v`. Induction over programs; the ring code runs on the kernel memory of OsModel.v. Histories of any length: the _exact_iff theorems say exactly for which capacities (rounded-up hints) the ring is a queue for ever, and that for all others some program (or interleaving) sees wrong bytes. The _partial theorems cover the histories of the latter whose stream position fits the word. |
| C75 Rings and maps never touch each other | partial | `ProcModel.v`: one program with maps (`ApiModel.v`) and rings (`MemRingModel.v`: the ring code over loads and stores of `OsModel.v`) | Simulation of `RingModel.v` by the code on memory (`MemRingProofs.v`), frame lemmas for every system call (`ProcFrame.v`), invariant by induction over programs (`ProcProofs.v`, `ProcPages.v`). Any length: `ProcExact.v`. With overflow checks on: every program. Without them the ranges and sizes passed to map calls must not wrap (C16_wrap_refuted; C22). |
| C76 Nothing stays mapped | partial | `ProcModel.v`: one program with maps (`ApiModel.v`) and rings (`MemRingModel.v`: the ring code over loads and stores of `OsModel.v`) | Simulation of `RingModel.v` by the code on memory (`MemRingProofs.v`), frame lemmas for every system call (`ProcFrame.v`), invariant by induction over programs (`ProcProofs.v`, `ProcPages.v`). Any length: `ProcExact.v`. Not for drops of maps of length 0 (C14_empty_map_leaks) or when the kernel refuses munmap (C76_refused_leaks). |
| C77 Windows: rings in a program answer like queues, end to end | partial | `WinProcModel.v`: one program with maps (`WinMapModel.v`) and rings (`MemRingModel.v` over loads and stores of `WinModel.v`) | Every call on a ring is a list of stores through it (`WinProcProofs.v`), so the invariants of `WinHist.v` and `WinLeak.v` carry over; answers by simulation as for C74 (`WinProcClaims.v`, `WinProcExact.v`). Induction over programs; the ring code runs on the kernel memory of WinModel.v. Histories of any length: the _exact_iff theorems say exactly for which capacities (rounded-up hints) the ring is a queue for ever, and that for all others some program (or interleaving) sees wrong bytes. The _partial theorems cover the histories of the latter whose stream position fits the word. |
| C78 Windows: rings and maps never touch each other | proved | `WinProcModel.v`: one program with maps (`WinMapModel.v`) and rings (`MemRingModel.v` over loads and stores of `WinModel.v`) | Every call on a ring is a list of stores through it (`WinProcProofs.v`), so the invariants of `WinHist.v` and `WinLeak.v` carry over; answers by simulation as for C74 (`WinProcClaims.v`, `WinProcExact.v`). Every call on a ring is shown to be a list of stores through it. |
| C79 Windows: nothing stays mapped in programs with rings | partial | `WinProcModel.v`: one program with maps (`WinMapModel.v`) and rings (`MemRingModel.v` over loads and stores of `WinModel.v`) | Every call on a ring is a list of stores through it (`WinProcProofs.v`), so the invariants of `WinHist.v` and `WinLeak.v` carry over; answers by simulation as for C74 (`WinProcClaims.v`, `WinProcExact.v`). Not for drops of maps of no bytes (C66_empty_refuted), which the claim excludes too, nor when the kernel refuses a release. |
| C80 Exactly which ring capacities stay queues for ever | proved | `RingModel.v`; queue with a count of entered bytes in `RingExactSpec.v` | Sufficiency: step simulation over any history (`RingExact.v`); necessity: for every other capacity a history of whole turns up to the wrap, then a store across it (`RingExactClaims.v`, Section Jump). The _exact theorems of C34-C43 follow (`RingLive.v`). Both directions: sufficiency by induction over histories of any length, necessity by a history built for every capacity that does not qualify. |
| C81 macOS: rings in a program answer like queues, end to end | partial | `MachProcModel.v`: one program with maps (`ApiModel.v`) and rings allocated by `MachModel.v` | An allocation, successful or not, adds pages of new objects only (`MachProcProofs.v`, `grown`); then as for C74-C76 (`MachProcClaims.v`, `MachProcExact.v`). Ports: induction over the history. Induction over programs; rings are allocated by MachModel.v in the memory of OsModel.v. Histories of any length: the _exact_iff theorems say exactly for which capacities (rounded-up hints) the ring is a queue for ever, and that for all others some program (or interleaving) sees wrong bytes. The _partial theorems cover the histories of the latter whose stream position fits the word. |
| C82 macOS: rings and maps never touch each other | partial | `MachProcModel.v`: one program with maps (`ApiModel.v`) and rings allocated by `MachModel.v` | An allocation, successful or not, adds pages of new objects only (`MachProcProofs.v`, `grown`); then as for C74-C76 (`MachProcClaims.v`, `MachProcExact.v`). Ports: induction over the history. With overflow checks on: every program. Without them sizes and ranges must not wrap (C16_wrap_refuted, C22, C31_huge_refuted). |
| C83 macOS: nothing stays mapped in programs with rings, but every ring leaks a port | partial | `MachProcModel.v`: one program with maps (`ApiModel.v`) and rings allocated by `MachModel.v` | An allocation, successful or not, adds pages of new objects only (`MachProcProofs.v`, `grown`); then as for C74-C76 (`MachProcClaims.v`, `MachProcExact.v`). Ports: induction over the history. Pages: not for drops of maps of length 0 (C14_empty_map_leaks) or when the kernel refuses to deallocate (C83_refused_leaks). Ports: every program. |
| C84 Exactly which buffers keep a stream of any length | proved | `BufModel.v`; the laws in `BufExactSpec.v` | Sufficiency: the invariants of C44-C52 with exact positions instead of a bound; necessity: for every other capacity a run of one-byte turns up to the wrap (`BufExact.v`). Both directions; necessity by a history of 2^bits - 1 one-byte turns followed by two bytes across the wrap. |
| C85 Every mapped page is accounted for, whatever the kernel refuses | proved | The programs of `ProcModel.v` and `MachProcModel.v`; `ProcLedgerSpec.v` says which pages a call leaves behind; on Windows `WinProcModel.v` with `WinLedgerSpec.v`: views of no held thing, reservations, section handles | Each call keeps: mapped = start + held + left behind, without overlap (`ProcLedger.v`; the release of a map or ring removes exactly its pages or nothing; a failed attempt adds pages of one range). On Windows every kernel call keeps the views and reservations tiling the mapped pages; a refused release is the only way a view loses its owner (`WinLedger.v`); the list of regions an attempt leaves is built along the loop of `map_ring` Kernel answers, sizes of maps and the order of calls are arbitrary; sizes for which alloc or map_ring wrap are excluded in the calls (C22, C31). |
| C86 A socket wrapped in a reader and a writer: two independent streams | proved | `DuplexModel.v`: the same functions over any inner object, so that wrappers nest; a socket; `DuplexSpec.v`: the calls of one direction | Each generic function equals the one of `BufModel.v` on the part of the inner object it uses (`DuplexProofs.v`, laws of a part that can be read and replaced); the two parts are independent, so a history splits (`run_parts`). C87 composes C48/C49 with the invariants of C44/C60 (`DuplexClaims.v`). The generic wrappers of DuplexModel.v are shown equal to the reader and writer of BufModel.v on the part of the object they use. |
| C87 Messages arrive as sent | proved | `DuplexModel.v`: the same functions over any inner object, so that wrappers nest; a socket; `DuplexSpec.v`: the calls of one direction | Each generic function equals the one of `BufModel.v` on the part of the inner object it uses (`DuplexProofs.v`, laws of a part that can be read and replaced); the two parts are independent, so a history splits (`run_parts`). C87 composes C48/C49 with the invariants of C44/C60 (`DuplexClaims.v`). Two peers of either shape; the exact-fit condition of the statement is needed (C87_exact_fit_refuted). |
| C88 Other processes: what the program sees of them, and what it does not | partial | `OthersModel.v`: acts of other processes as steps of the histories of `ApiModel.v`, `ProcModel.v` and `MachProcModel.v` | Each act keeps every page entry, but for private copies behind a new end (`OthersProofs.v`); exact value of every load through a map (`OthersClaims.v`, `read_exact`) before and after; memory without a name is reached by nobody (`ProcFrame.v`, `AnonClaims.v`). Acts happen between calls (inside one: C91, C92). C88_anonymous_partial and C88_ring_partial: no wrapping offsets or sizes (call_ok), and nobody uses a name that shm_unlink failed to remove (named_ok, C88_named_memory_refuted). |
| C89 Every access and every check, decided | proved | The models of C10-C26 | Loads from `read_exact` (C88); stores from an invariant that the permission of every page of a map is its protection or its conversion history (`ExactClaims.v`, `permits`), scalar writes byte by byte under it (`ExactWrites.v`); the checks by exact modular arithmetic in both builds. Complements the partial claims C16, C22, C24, C26 and C57 with what happens in the cases they exclude. C89_range: for wrapped ranges that begin at or behind the second page of the address space. |
| C90 std's provided methods, and programs that react, on rings | proved | `StdModel.v`: the provided methods of `Read`, `BufRead`, `Write` and `bytes::Buf` over the ring models; adaptive programs as trees of calls | `StdSpec.v` defines pieces and programs served by a queue; the readers are proved over an abstract object that shows bytes, writers by induction over fragments, programs by induction over the tree (`StdClaims.v`). The methods of std and bytes are assumed (StdModel.v); proved once for any object that shows its bytes, then for both rings. Writing: with room in the stream position for the bytes (C34, C80). |
| C91 Mapping a file while others change it: decided by the length that fstat found | proved | `ThreadModel.v`: a call that makes a map or ring as a sequence of stages, one system call each; any number of threads; acts of other processes | The stages run alone are the call of `ProcModel.v` (`ThreadClaims.v`); an invariant over all interleavings in which each stage knows what it has reserved, opened and read (`ThreadInv.v`); frames for every stage (`ThreadFrame.v`); what a thread knows at `fstat` is carried to its answer by induction over the events of the others (`ThreadClaims3.v`). Rings over interleavings of any length, and the converse: `ThreadExact.v`. The _refuted theorems are the negative sentences of the statement (fatal loads behind a cut; Min shortening, Max lengthening), each with a witness. |
| C92 Calls in progress do not touch each other's memory | partial | `ThreadModel.v`: a call that makes a map or ring as a sequence of stages, one system call each; any number of threads; acts of other processes | The stages run alone are the call of `ProcModel.v` (`ThreadClaims.v`); an invariant over all interleavings in which each stage knows what it has reserved, opened and read (`ThreadInv.v`); frames for every stage (`ThreadFrame.v`); what a thread knows at `fstat` is carried to its answer by induction over the events of the others (`ThreadClaims3.v`). Rings over interleavings of any length, and the converse: `ThreadExact.v`. apart, mapped and ring_kept: every interleaving. The ring answers: Histories of any length: the _exact_iff theorems say exactly for which capacities (rounded-up hints) the ring is a queue for ever, and that for all others some program (or interleaving) sees wrong bytes. The _partial theorems cover the histories of the latter whose stream position fits the word. |
| C93 Calls in progress leave nothing behind | proved | The interleavings of `ThreadModel.v`, with the pages left behind and the descriptors handed out (`ThreadLedgerSpec.v`) | Each stage exchanges exactly the pages and the descriptor of its thread for those of its outcome (`adv_exact`, `ThreadLedger.v`); calls made as one step by C85; then induction over the events with the invariant of C92. The pages left behind are defined in ThreadLedgerSpec.v (and, for calls made as one step, as in C85). |
| C94 The inner object used directly, between calls on the wrapper | partial | `BufDirectModel.v`: histories of calls on the wrapper and direct reads, writes and flushes of the inner object; replacing the inner object through `&mut`: C108 | `BufDirectSpec.v` says how pieces are taken and given in turn; the source only shrinks and the log of the sink only grows in every function (`BufDirectProofs.v`), so the invariants of C44 and C47 determine the piece of each call; induction over the history. Covered: histories whose stream position fits the word (every history of fewer than 2^64 bytes on 64-bit, of fewer than 2^32 on 32-bit), and any history without overflow checks where the capacity divides the word; the rest is false (C34_ring_32bit_refuted; C84 gives the exact conditions for histories of any length). |
| C95 Buffered readers and writers inside programs | partial | `BufProgModel.v`: the functions of `BufModel.v` as programs whose steps are calls on a ring; `BufProgSpec.v` runs them in the processes of C74, C81 and C77, with any calls of the rest of the program and acts of other processes before each step. The inner object is a script (as in C44, C47): what it does to the process is among the other calls | Each function as a program computes, on any queue that answers as a ring does, what `BufModel.v` says (`evals`); a ring of a process answers as the ring alone whatever else is called (C74 to C83), so every execution ends as the object alone (`exec_sound`), and one exists. Covered: histories whose stream position fits the word (every history of fewer than 2^64 bytes on 64-bit, of fewer than 2^32 on 32-bit), and any history without overflow checks where the capacity divides the word; the rest is false (C34_ring_32bit_refuted; C84 gives the exact conditions for histories of any length). |
| C96 std's provided methods and io::copy on buffered readers and writers | partial | `BufStdModel.v`: the provided methods of `Read`, `BufRead` and `Write` and `io::copy` as loops over the calls of `BufModel.v`; std is assumed | Each loop is a history of calls (`BufStdProofs.v`), so the invariants of C44 and C47 hold behind it; reasons for its end by the answers used; pieces and lines by induction over the loop (`BufStdClaims.v`). std is assumed (BufStdModel.v). split and lines: the inner reader reports its end only at its end (steady). Order in copy: but for writes that fill the buffer exactly (C48). Covered: histories whose stream position fits the word (every history of fewer than 2^64 bytes on 64-bit, of fewer than 2^32 on 32-bit), and any history without overflow checks where the capacity divides the word; the rest is false (C34_ring_32bit_refuted; C84 gives the exact conditions for histories of any length). |
| C97 Between the system calls of one call on Windows | proved | `WinThreadModel.v`: the calls that make a map or ring, or drop a ring, as sequences of stages, one system call each; any number of threads. The other calls (one or two system calls on a map of their own) are made as one step; acts of other processes (C101) happen between any two system calls | The stages run alone are the call of `WinProcModel.v` (`WinThreadAlone.v`); an invariant over all interleavings in which each stage knows the addresses and the handle it has (`WinThreadInv.v`, `WinThreadAdv.v`, `WinThreadStep.v`); what a thread has found out is carried to its answer by induction over the events of the others (`WinThreadClaims.v`, `WinThreadClaims2.v`). Rings over interleavings of any length, and the converse: `WinThreadExact.v`. C97_placed_refuted is the negative sentence of the statement (a ring that loses all six places), with a witness. |
| C98 Calls in progress on Windows do not touch each other's memory and handles | partial | `WinThreadModel.v`: the calls that make a map or ring, or drop a ring, as sequences of stages, one system call each; any number of threads. The other calls (one or two system calls on a map of their own) are made as one step; acts of other processes (C101) happen between any two system calls | The stages run alone are the call of `WinProcModel.v` (`WinThreadAlone.v`); an invariant over all interleavings in which each stage knows the addresses and the handle it has (`WinThreadInv.v`, `WinThreadAdv.v`, `WinThreadStep.v`); what a thread has found out is carried to its answer by induction over the events of the others (`WinThreadClaims.v`, `WinThreadClaims2.v`). Rings over interleavings of any length, and the converse: `WinThreadExact.v`. apart, mapped, kept and handles: every interleaving. The ring answers: Histories of any length: the _exact_iff theorems say exactly for which capacities (rounded-up hints) the ring is a queue for ever, and that for all others some program (or interleaving) sees wrong bytes. The _partial theorems cover the histories of the latter whose stream position fits the word. |
| C99 Calls in progress on Windows leave nothing behind | proved | the same model; `WinThreadLedgerSpec.v` says who answers for a view, a reservation, an open file | The tiling is part of the invariant of C98; who answers for what moves with each stage (`WinThreadLedger.v`, from the per-stage lemma of `WinThreadAdv.v` and the per-call lemma of C85); files by a case analysis of the stages (`WinThreadFiles.v`) Every interleaving. C99_tidy says "not: nobody answers for it", as ownership is not decided in the logic; C99_quiet has the plain form. |

## `Print Assumptions`

Every theorem below is followed by `Print Assumptions` in its `Properties*.v` file.
For each of them Coq prints `Closed under the global context`: no axiom, neither of
ours nor of the standard library, is used.

* C01: `C01_round_exact`
* C02: `C02_truncate_offset`, `C02_default`
* C03: `C03_count_exact`, `C03_size_exact`, `C03_size_of_count`, `C03_count_wide_refuted`
* C04: `C04_bounds_exact`, `C04_bounds_minimal`
* C05: `C05_cache_race_free`
* C06: `C06_extent`, `C06_extent_fits`, `C06_decided`, `C06_wide_file_refuted`
* C07: `C07_shows_file`
* C08: `C08_map_agrees`, `C08_open_agrees`
* C09: `C09_file_length`, `C09_other_files`
* C10: `C10_write_through`, `C10_seen_by_sharers`
* C100: `C100_reader`, `C100_writer`, `C100_reader_mach`, `C100_writer_mach`, `C100_reader_win`, `C100_writer_win`
* C101: `C101_kept`, `C101_written`, `C101_elsewhere`, `C101_private`, `C101_cut`, `C101_copy_kept`
* C102: `C102_load`, `C102_store`, `C102_read`, `C102_write`, `C102_range`, `C102_alloc`
* C103: `C103_uninterrupted`, `C103_ends`, `C103_apart`, `C103_mapped`, `C103_ring_kept`, `C103_ring_partial`, `C103_ring_64bit`, `C103_infinite_partial`, `C103_ring_exact_iff`, `C103_infinite_exact_iff`, `C103_decided`
* C104: `C104_pages`, `C104_files`, `C104_quiet`, `C104_ports_kept`, `C104_ports_made`
* C105: `C105_write_xor_execute`, `C105_write_xor_execute_macos`, `C105_write_xor_execute_windows`, `C105_no_execute`, `C105_no_execute_macos`, `C105_no_execute_windows`, `C105_made`, `C105_made_windows`, `C105_converted_windows`, `C12_into_map_mut`
* C106: `C106_page_table`, `C106_answers`, `C106_map_file`, `C106_map_anon`, `C106_map_unmap`, `C106_protect_iff`, `C106_flush`, `C106_bytes`, `C106_will_not_need`, `C106_protect_copy_refuted`, `C106_map_file_iff`, `C106_map_anon_iff`, `C106_unmap_iff`, `C106_flush_iff`, `C106_lock_iff`, `C106_advise_iff`
* C107: `C107_page_table`, `C107_answers`, `C107_map_file_iff`, `C107_map_anon_iff`, `C107_unmap_iff`, `C107_protect_iff`, `C107_lock_iff`, `C107_flush_iff`, `C107_unmap_len_refuted`
* C108: `C108_reader_partial`, `C108_reader_64bit`, `C108_writer_partial`, `C108_writer_64bit`
* C109: `C109_page_table`, `C109_mirror`
* C11: `C11_copy_private`, `C11_copy_history`
* C110: `C110_page_table`, `C110_mirror`
* C111: `C111_page_table`, `C111_mirror`, `C111_map_answers`, `C111_unmap_answers`, `C111_unmap_iff`, `C111_unmap_both_refuted`
* C12: `C12_into_map_mut`, `C12_same_map`
* C13: `C13_into_map_partial`, `C13_read_only_refuted`, `C13_same_map`
* C14: `C14_drop_partial`, `C14_map_drop_partial`, `C14_alloc_drop_partial`, `C14_empty_map_leaks`, `C14_empty_map_refuted`
* C15: `C15_disjoint_partial`, `C15_others_partial`, `C15_call_ok_checked`
* C16: `C16_range_checked_partial`, `C16_wrap_refuted`
* C17: `C17_range_pages`, `C17_whole_pages`
* C18: `C18_durable`, `C18_durable_uncut`
* C19: `C19_advise_hint_partial`, `C19_will_not_need_refuted`
* C20: `C20_lock`
* C21: `C21_open`, `C21_open_if`, `C21_map`, `C21_close`
* C22: `C22_alloc_partial`, `C22_new`, `C22_wrap_refuted`
* C23: `C23_alloc_partial`, `C23_readonly_refuted`
* C24: `C24_outside_partial`, `C24_slice_partial`, `C24_map_partial`, `C24_empty`, `C24_map_empty`, `C24_hole_refuted`, `C24_wrap_refuted`
* C25: `C25_slice_write`, `C25_volatile`, `C25_read`, `C25_representation`, `C25_map_write`
* C26: `C26_readable_partial`, `C26_truncate_refuted`
* C27: `C27_mirrored`, `C27_elsewhere`, `C27_ring_memory`
* C28: `C28_success`, `C28_failure`, `C28_stage`
* C29: `C29_create_drop`
* C30: `C30_capacity`, `C30_failure`
* C31: `C31_success_partial`, `C31_failure_partial`, `C31_stage_partial`, `C31_create_drop_partial`, `C31_ports_refuted`, `C31_huge_partial`, `C31_huge_refuted`, `C31_unaligned_refuted`
* C32: `C32_allocation`, `C32_retry`
* C33: `C33_inverted`, `C33_unmap_refuted`
* C34: `C34_ring_queue_partial`, `C34_ring_64bit`, `C34_ring_pow2`, `C34_fifo_partial`, `C34_ring_32bit_refuted`, `C34_fifo_exact`, `C80_ring_exact_iff`
* C35: `C35_accounting`
* C36: `C35_accounting`, `C36_store_private_partial`, `C36_store_32bit_refuted`, `C36_store_private_exact`
* C37: `C37_write_all_partial`, `C37_write_all_exact`
* C38: `C38_clear_partial`, `C38_clear_exact`
* C39: `C39_read_until_partial`, `C39_read_until_exact`
* C40: `C40_bytes_partial`, `C40_bytes_exact`
* C41: `C41_most_recent_partial`, `C41_lossy_queue_partial`, `C41_most_recent_exact`, `C80_infinite_exact_iff`
* C42: `C42_oversized_partial`, `C42_oversized_exact`
* C43: `C43_feed_partial`, `C43_feed_refuted`, `C43_feed_exact`
* C44: `C44_stream_partial`, `C44_stream_64bit`
* C45: `C45_low_water`, `C45_mark`, `C45_bypass`
* C46: `C46_end_of_input`
* C47: `C47_conservation_partial`, `C47_conservation_64bit`
* C48: `C48_order_partial`, `C48_exact_fit_overtakes`, `C48_order_refuted`
* C49: `C49_flush_partial`
* C50: `C50_into_inner_partial`
* C51: `C51_into_parts`
* C52: `C52_drop_partial`
* C53: `C53_errors_keep_cause`, `C53_round_trip`
* C54: `C54_message`, `C54_message_identifies_operation`
* C55: `C55_build`, `C55_independent`, `C55_last_wins`, `C55_needs_write`, `C55_access_matches`
* C56: `C56_name_partial`, `C56_epoch_refuted`, `C56_retry`, `C56_error`
* C57: `C57_store_partial`, `C57_builder`, `C57_default_refuted`
* C58: `C58_api_errors`, `C28_stage`, `C30_failure`, `C56_error`
* C59: `C59_reader_safe`, `C59_writer_safe`, `C59_writer_parts_safe`
* C60: `C60_read_until_partial`, `C60_read_exact_partial`
* C61: `C61_map_file`, `C61_map_anon`
* C62: `C62_flush`
* C63: `C63_unmap_ring`, `C63_create_drop`
* C64: `C64_protect`, `C64_lock`
* C65: `C65_extent`, `C65_file`, `C65_space`, `C65_shows`, `C65_alloc`
* C66: `C66_drop_partial`, `C66_empty_refuted`
* C67: `C67_readable`, `C67_isolation`, `C67_store`, `C67_file`
* C68: `C68_exact_partial`, `C68_all_dropped_partial`
* C69: `C69_into_map_mut`, `C69_writable_file_refuted`, `C69_same_map`
* C70: `C70_flush`, `C70_flush_range`
* C71: `C71_range_checked_partial`, `C71_wrap_refuted`, `C71_lock`, `C71_advise`
* C72: `C72_map_agrees`, `C72_open_agrees`, `C72_open`, `C72_open_if`, `C72_map`, `C72_new`
* C73: `C73_errors`
* C74: `C74_ring_partial`, `C74_ring_64bit`, `C74_infinite_partial`, `C74_ring_exact_iff`, `C74_infinite_exact_iff`
* C75: `C75_apart_partial`, `C75_local_partial`, `C75_files_partial`, `C75_no_fault_partial`, `C75_ring_kept_partial`
* C76: `C76_mapped_partial`, `C76_all_dropped_partial`, `C76_refused_leaks`
* C77: `C77_ring_partial`, `C77_ring_64bit`, `C77_infinite_partial`, `C77_ring_exact_iff`, `C77_infinite_exact_iff`
* C78: `C78_histories`, `C78_isolation`, `C78_ring_kept`, `C78_no_fault`, `C78_local`
* C79: `C79_exact_partial`, `C79_all_dropped_partial`
* C80: `C80_ring_exact_iff`, `C80_infinite_exact_iff`
* C81: `C81_ring_partial`, `C81_ring_64bit`, `C81_infinite_partial`, `C81_ring_exact_iff`, `C81_infinite_exact_iff`
* C82: `C82_apart_partial`, `C82_local_partial`, `C82_files_partial`, `C82_no_fault_partial`, `C82_ring_kept_partial`
* C83: `C83_mapped_partial`, `C83_all_dropped_partial`, `C83_ports`, `C83_refused_leaks`
* C84: `C84_reader_iff`, `C84_conservation_iff`, `C84_order_iff`, `C84_flush_iff`, `C84_into_inner_iff`, `C84_drop_iff`
* C85: `C85_ledger`, `C85_attempt`, `C85_mach_ledger`, `C85_mach_attempt`, `C85_win_ledger`, `C85_win_kept`, `C85_win_left`, `C85_win_attempt`
* C86: `C86_reader_of_writer`, `C86_writer_of_reader`, `C86_unbuffered_writes`, `C86_unbuffered_reads`, `C86_streams`, `C86_drop`
* C87: `C87_lines`, `C87_frames`, `C87_exact_fit_refuted`
* C88: `C88_kept`, `C88_written`, `C88_elsewhere`, `C88_cut`, `C88_copy_kept`, `C88_anonymous_partial`, `C88_ring_partial`, `C88_named_memory_refuted`
* C89: `C89_load`, `C89_store`, `C89_read`, `C89_write`, `C89_slice`, `C89_range`, `C89_alloc`
* C90: `C90_ring_read`, `C90_infinite_read`, `C90_ring_write`, `C90_infinite_write`, `C90_ring_programs`, `C90_infinite_programs`
* C91: `C91_uninterrupted`, `C91_decided`, `C91_readable_refuted`, `C91_min_refuted`, `C91_max_refuted`, `C91_ends`
* C92: `C92_apart`, `C92_mapped`, `C92_ring_kept`, `C92_ring_partial`, `C92_ring_64bit`, `C92_infinite_partial`, `C92_ring_exact_iff`, `C92_infinite_exact_iff`
* C93: `C93_pages`, `C93_files`, `C93_quiet`
* C94: `C94_reader_partial`, `C94_reader_64bit`, `C94_writer_partial`, `C94_writer_64bit`
* C95: `C95_reader_partial`, `C95_writer_partial`, `C95_reader_64bit`, `C95_writer_64bit`, `C95_reader_mach_partial`, `C95_writer_mach_partial`, `C95_reader_win_partial`, `C95_writer_win_partial`
* C96: `C96_read_to_end_partial`, `C96_read_to_string_partial`, `C96_read_line_partial`, `C96_split_partial`, `C96_lines_partial`, `C96_write_fmt_partial`, `C96_copy_partial`, `C96_copied_partial`
* C97: `C97_uninterrupted`, `C97_decided`, `C97_object`, `C97_alloc`, `C97_ends`, `C97_placed_refuted`
* C98: `C98_apart`, `C98_mapped`, `C98_kept`, `C98_handles`, `C98_handles_closed`, `C98_ring_partial`, `C98_ring_64bit`, `C98_infinite_partial`, `C98_ring_exact_iff`, `C98_infinite_exact_iff`
* C99: `C99_tiled`, `C99_left`, `C99_kept`, `C99_tidy`, `C99_quiet`, `C99_files`, `C99_files_quiet`
