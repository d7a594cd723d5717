{"id": "C01", "title": "Size::round is the least multiple at or above the length", "statement": "For a power-of-two unit, Size::round(len) without overflow checks returns the smallest multiple of the unit that is >= len whenever that multiple fits the machine word and 0 otherwise; with overflow checks it panics exactly when len + unit does not fit the word (so also for the one representable result at the very top) and otherwise returns that smallest multiple.", "quantifier": "every power-of-two unit size, every usize length, 32- and 64-bit targets, overflow checks on or off", "why_tests_cant": "The domain is 2^64 lengths times every unit; the existing test samples six values of one unit.", "anchors": ["src/lib.rs: Size::round, Size::truncate, Size::with_size"]}
{"id": "C02", "title": "Size::truncate and Size::offset split a position", "statement": "Size::truncate(len) is the largest multiple of the unit that is <= len, Size::offset(len) is the remainder, it is smaller than the unit, and truncate(len) + offset(len) = len; neither ever panics.", "quantifier": "every power-of-two unit size and every usize position", "why_tests_cant": "Bit-mask arithmetic over the whole word range cannot be enumerated.", "anchors": ["src/lib.rs: Size::truncate, Size::offset"]}
{"id": "C03", "title": "Size::count and Size::size are inverse unit conversions", "statement": "Size::count(len) is the least number of units whose total size is >= len, Size::size(n) is exactly n units, and size(count(len)) = round(len).", "quantifier": "every power-of-two unit, every length and count for which the result fits u32 / usize; the exact failing inputs are characterised too", "why_tests_cant": "The result is cast to u32, so correctness depends on inputs far beyond what tests map.", "anchors": ["src/lib.rs: Size::count, Size::size"]}
{"id": "C04", "title": "Size::bounds is the tightest unit-aligned cover of a range", "statement": "Size::bounds(ptr, len) returns a start that is unit-aligned and a length that is a multiple of the unit, such that the returned range contains [ptr, ptr+len), and no smaller unit-aligned range does.", "quantifier": "every power-of-two unit, every address and length whose rounded end fits the address space", "why_tests_cant": "Every flush, advise, lock, protect and unmap call relies on it at arbitrary addresses.", "anchors": ["src/lib.rs: Size::bounds"]}
{"id": "C05", "title": "page_size() and allocation_size() are race free", "statement": "Whatever number of threads call page_size() and allocation_size() concurrently for the first time, each call returns the true system value and finishes in a bounded number of its own steps.", "quantifier": "every number of threads, every call mix, every interleaving, and every value a relaxed load may legally observe", "why_tests_cant": "The unsynchronised lazy initialisation races only on first use; no test explores the schedules.", "anchors": ["src/lib.rs: page_size, allocation_size, load_system_info, PAGE_SIZE, ALLOC_SIZE"]}
{"id": "C06", "title": "The length of a file mapping follows the requested extent", "statement": "After any requested truncate/resize, map_if() yields None exactly when the offset lies past the end of the file or an Exact/Min length does not fit after it; otherwise the map's length is the rest of the file (End, Min), the requested length (Exact) or the smaller of both (Max).", "quantifier": "every option combination, every file length, offset and requested length", "why_tests_cant": "The decision table combines three extents kinds twice with unbounded sizes.", "anchors": ["src/map.rs: Options::map_if, Options::len, Options::offset"]}
{"id": "C07", "title": "A mapping shows exactly the requested bytes of the file", "statement": "If mapping a file succeeds with offset o and length n, then reading the map gives exactly file bytes o .. o+n, in order, whatever the alignment of o, and no read inside the map faults.", "quantifier": "every file content, every offset (aligned or not), every length and extent, every address the OS picks", "why_tests_cant": "Depends on the alignment arithmetic agreeing with the kernel for all offsets.", "anchors": ["src/map.rs: Options::map_if, Map::deref, MapMut::deref", "src/os/unix/mod.rs: map_file"]}
{"id": "C08", "title": "map()/open() agree with map_if()/open_if()", "statement": "map() returns the same map as map_if() with the same side effects, and turns exactly the None case into an InvalidRange input error for the map-file operation; other errors pass through unchanged; the same holds for open() and open_if().", "quantifier": "every option set, file state and OS behaviour", "why_tests_cant": "Must hold on every error path of the OS, which tests do not exercise.", "anchors": ["src/map.rs: Options::map, Options::map_if, Options::open, Options::open_if"]}
{"id": "C09", "title": "resize and truncate change the file exactly as documented", "statement": "truncate(true) empties a non-empty file first; resize Exact(n) leaves length n, Min(n) leaves max(len,n), Max(n) leaves min(len,n), End leaves it alone; bytes below the smallest length passed through are preserved, added bytes are zero, other files are untouched.", "quantifier": "every file content and length, every truncate/resize combination", "why_tests_cant": "The order of truncate, resize and the range check matters for every size combination.", "anchors": ["src/map.rs: Options::map_if, Options::resize, Options::truncate"]}
{"id": "C10", "title": "A writable file map writes through to the file", "statement": "Storing bytes through a MapMut opened with write access changes exactly those bytes of the file (offset + index) and nothing else, and every other shared mapping of the file sees them.", "quantifier": "every map, index, byte string, and every other mapping of the same or another file", "why_tests_cant": "Non-interference with all other addresses is a universally quantified statement.", "anchors": ["src/map.rs: MapMut::deref_mut, Options::write", "src/os/unix/mod.rs: map_file"]}
{"id": "C11", "title": "A copy map never changes the file", "statement": "Stores through a map opened with copy() are visible through that map, but never change any file nor any other map.", "quantifier": "every sequence of stores, every file and every other mapping", "why_tests_cant": "Isolation must hold for all other observers and all stores.", "anchors": ["src/map.rs: Options::copy", "src/os/unix/mod.rs: map_file"]}
{"id": "C12", "title": "into_map_mut() succeeds exactly when writing is allowed", "statement": "Converting a Map to a MapMut never changes its address, length or content; it fails for a shared mapping of a file not opened for writing and then returns the original, still readable map; when it succeeds every byte of the map is writable.", "quantifier": "every map produced by the API and every OS answer", "why_tests_cant": "Requires reasoning about page protection of every page and about failure paths.", "anchors": ["src/map.rs: Map::into_map_mut, MapMut::into_map", "src/os/unix/mod.rs: protect"]}
{"id": "C13", "title": "into_map() yields a read-only mapping", "statement": "After MapMut::into_map() succeeds the mapped pages may no longer be written, and address, length and content are unchanged.", "quantifier": "every map and every page of it", "why_tests_cant": "Tests only read after the conversion; nothing observes the protection.", "anchors": ["src/map.rs: MapMut::into_map"]}
{"id": "C14", "title": "Dropping a map releases exactly its own pages", "statement": "Dropping a Map or MapMut (file or anonymous) unmaps precisely the pages that creating it mapped: afterwards the address space is what it was before the mapping.", "quantifier": "every offset, length, extent and address choice", "why_tests_cant": "Leaks or over-unmapping only appear for particular alignments and lengths.", "anchors": ["src/map.rs: MapMut::drop, Options::map_if, Options::alloc", "src/lib.rs: Size::bounds"]}
{"id": "C15", "title": "Maps do not interfere over any history", "statement": "In any sequence of creating, converting, writing through, advising, locking, flushing and dropping maps, live maps occupy disjoint pages, and no operation on one map changes the address range or protection of another.", "quantifier": "every history of API operations on any number of maps", "why_tests_cant": "Invariant over all histories and address choices.", "anchors": ["src/map.rs: MapMut, Options::map_if, Options::alloc, MapMut::drop"]}
{"id": "C16", "title": "Sub-range operations are bounds checked", "statement": "flush_range, advise_range, lock_range and unlock_range return an InvalidRange input error, naming their own operation and touching nothing, exactly when off + len exceeds the map's length.", "quantifier": "every offset and length in usize, overflow checks on or off", "why_tests_cant": "Offsets near usize::MAX wrap; tests never use them.", "anchors": ["src/map.rs: MapMut::flush_range, advise_range, lock_range, unlock_range"]}
{"id": "C17", "title": "Sub-range operations touch only pages of the map that meet the range", "statement": "When the range is valid, the address range passed to the OS is page aligned, covers every byte of the requested range, and contains only pages of this map that overlap the requested range (at most one when it is empty).", "quantifier": "every map, offset, length and address", "why_tests_cant": "Rounding must never spill into neighbouring mappings for any alignment.", "anchors": ["src/map.rs: MapMut::flush_range, advise_range, lock_range, unlock_range, flush, advise, lock, unlock", "src/lib.rs: Size::bounds"]}
{"id": "C18", "title": "A synchronous flush is durable at every later crash point", "statement": "Once flush(Sync) or flush_range(Sync) has returned Ok on a shared file map, then at any later crash each byte of the flushed range found on storage is the value it had at the flush or one stored to it afterwards.", "quantifier": "every sequence of stores, background write-backs and flushes, and every crash point after the flush", "why_tests_cant": "Crash points and background write-back schedules cannot be enumerated by tests.", "anchors": ["src/map.rs: MapMut::flush, MapMut::flush_range", "src/os/unix/mod.rs: flush"]}
{"id": "C19", "title": "advise() is only a hint", "statement": "advise and advise_range never change the bytes of this or any other map, nor of any file, nor any protection.", "quantifier": "every advice value, range, map kind and state", "why_tests_cant": "Destructive advice only shows on some map kinds after stores.", "anchors": ["src/map.rs: MapMut::advise, MapMut::advise_range", "src/os/unix/mod.rs: advise"]}
{"id": "C20", "title": "lock and unlock affect exactly the right pages", "statement": "lock_range/lock pin every page meeting the range and no page outside the map, unlock undoes it, contents are unchanged, and an OS refusal is reported with the lock/unlock operation.", "quantifier": "every range, map and prior lock state", "why_tests_cant": "Page-level effects are not observable from unit tests.", "anchors": ["src/map.rs: MapMut::lock, lock_range, unlock, unlock_range", "src/os/unix/mod.rs: lock, unlock"]}
{"id": "C21", "title": "The file handle is never retained", "statement": "open() returns exactly one open file on success and leaves no file open on any error; mapping an existing file neither opens nor closes anything; closing the returned file changes nothing visible through the map.", "quantifier": "every option set, every failing OS call, every later close", "why_tests_cant": "Descriptor leaks occur only on error paths.", "anchors": ["src/map.rs: Options::open, Options::open_if, Options::map, Options::map_if"]}
{"id": "C22", "title": "Anonymous allocation gives a zeroed region of the right size", "statement": "alloc() yields length l for Exact(l)/Max(l), the rest of the allocation unit(s) for Min(l) (at least l) and End, all bytes readable and zero, the start keeps the requested page offset, and no file changes.", "quantifier": "every offset and extent, every address choice", "why_tests_cant": "Unbounded sizes and alignments.", "anchors": ["src/map.rs: Options::alloc, MapMut::new", "src/os/unix/mod.rs: map_anon"]}
{"id": "C23", "title": "Every map can be allocated anonymously", "statement": "Options created for a read-only Map or a MapMut can both allocate anonymously when memory is available.", "quantifier": "every option set with a non-zero length", "why_tests_cant": "No test allocates a read-only anonymous map.", "anchors": ["src/map.rs: Options::alloc", "src/os/unix/mod.rs: map_anon"]}
{"id": "C24", "title": "Scalar accessors are bounds checked", "statement": "read_volatile, read_unaligned, write_volatile and write_unaligned panic exactly when the value does not lie fully inside the span (offset + size > length), before touching memory.", "quantifier": "every span, every offset in usize, every scalar type, overflow checks on or off", "why_tests_cant": "Offsets near usize::MAX wrap around the bounds check.", "anchors": ["src/lib.rs: Span::read_volatile, Span::read_unaligned, SpanMut::write_volatile, SpanMut::write_unaligned, assert_capacity"]}
{"id": "C25", "title": "Scalar writes read back and touch nothing else", "statement": "After write_*(off, v), read_*(off) of the same type returns v, every byte outside [off, off+size) is unchanged, and volatile accesses panic exactly when the address is not aligned for the type.", "quantifier": "every scalar width, value, offset, base address, endianness", "why_tests_cant": "2^128 values times all offsets.", "anchors": ["src/lib.rs: Span, SpanMut, assert_alignment, assert_capacity"]}
{"id": "C26", "title": "Maps stay readable for their whole life", "statement": "From creation until drop no read of a byte inside the map faults, whatever other API calls are made on this or other maps and files.", "quantifier": "every history of API calls", "why_tests_cant": "Another mapping call may shrink the file under a live map.", "anchors": ["src/map.rs: Map::deref, Options::map_if"]}
{"id": "C27", "title": "A ring allocation is mirrored", "statement": "After a successful ring allocation of N bytes, for every i < N the addresses base+i and base+N+i denote the same byte, distinct i denote distinct bytes, all 2N addresses are readable and writable, and all bytes are initially zero.", "quantifier": "every size (power of two or not), every address choice", "why_tests_cant": "v0.5.0 failed only for particular non-power-of-two sizes.", "anchors": ["src/os/unix/posix/mod.rs: map_ring, wrap_fd, wrap_ptr, map, tmp_open"]}
{"id": "C28", "title": "Ring allocation leaks nothing", "statement": "Whichever OS call of a ring allocation fails, the error names the failing stage and the address space and the open descriptors are as before; on success no descriptor stays open and exactly 2N bytes of addresses are added.", "quantifier": "every failure point, every size", "why_tests_cant": "Fault injection at each system call is not available to the tests.", "anchors": ["src/os/unix/posix/mod.rs: map_ring, wrap_fd, wrap_ptr, tmp_open", "src/os/unix/posix/memfd.rs: memfd_open"]}
{"id": "C29", "title": "Dropping a ring frees its whole address range", "statement": "Creating and then dropping a Ring or InfiniteRing leaves the address space and descriptors unchanged.", "quantifier": "every capacity hint and address choice", "why_tests_cant": "Leaks are invisible to the tests.", "anchors": ["src/io/ring.rs: Ring::drop, InfiniteRing::drop, Ring::new", "src/os/unix/posix/mod.rs: unmap_ring"]}
{"id": "C30", "title": "A ring's capacity is the rounded hint", "statement": "A successfully created Ring or InfiniteRing has a non-zero capacity that is the least multiple of the allocation size >= the hint.", "quantifier": "every usize hint, overflow checks on or off", "why_tests_cant": "Hints near usize::MAX overflow the rounding.", "anchors": ["src/io/ring.rs: Ring::new, InfiniteRing::new", "src/lib.rs: Size::round"]}
{"id": "C31", "title": "macOS ring allocation leaks nothing", "statement": "On macOS/iOS, whichever kernel call fails, the error names the stage and the address space is restored; on success 2N mirrored addresses are added; no kernel port stays allocated.", "quantifier": "every failure point and size", "why_tests_cant": "Port-name leaks and failure paths are not observable in tests.", "anchors": ["src/os/unix/mach.rs: map_ring, unmap_ring"]}
{"id": "C32", "title": "Windows ring allocation is bounded and leaks nothing", "statement": "On Windows ring allocation makes at most six placement attempts, closes its mapping handle on every path, leaves both views mapped adjacently on success and none on failure.", "quantifier": "every sequence of OS outcomes", "why_tests_cant": "The retry race with other threads cannot be scheduled from a test.", "anchors": ["src/os/windows.rs: map_ring, map_ring_handle, reserve, MapHandle::drop, unmap_ring"]}
{"id": "C33", "title": "Windows unmap reports success as success", "statement": "On Windows os::unmap returns Ok exactly when the OS unmapped the view.", "quantifier": "every OS outcome", "why_tests_cant": "The result is ignored by every caller in the crate, so no test sees it.", "anchors": ["src/os/windows.rs: unmap"]}
{"id": "C34", "title": "Ring is an exact bounded FIFO", "statement": "Over any sequence of write, write_all, read, consume, feed, slice stores and clear calls, a Ring's readable bytes are exactly the bytes written and not yet read, in order; each write accepts min(len, free) bytes and each read returns min(len, available).", "quantifier": "every capacity (power of two or not), every history, 32- and 64-bit targets", "why_tests_cant": "Position counters, wrap-around and capacity interact over unbounded histories.", "anchors": ["src/io/ring.rs: Ring", "src/io/mod.rs: SeqRead, SeqWrite"]}
{"id": "C35", "title": "Ring accounting", "statement": "At all times read_len + write_len = write_capacity, is_empty/is_full agree with them, read_offset and write_offset are below the capacity, and consume/feed move at most what is available.", "quantifier": "every history", "why_tests_cant": "Invariant over all histories.", "anchors": ["src/io/ring.rs: Ring::read_len, write_len, write_capacity, feed, consume"]}
{"id": "C36", "title": "Ring slices are contiguous, in bounds and disjoint", "statement": "as_read_slice(max) and as_write_slice(max) always lie inside the mirrored 2N-byte mapping, have the documented lengths, and writing through the write slice never alters readable bytes.", "quantifier": "every history, every max", "why_tests_cant": "Memory safety of raw slices for all wrap positions.", "anchors": ["src/io/mod.rs: SeqRead::as_read_slice, SeqWrite::as_write_slice"]}
{"id": "C37", "title": "write_all on a Ring fits or fails with the prefix stored", "statement": "write_all(buf) on a Ring returns Ok exactly when buf fits the free space; otherwise it returns WriteZero and the ring is full, holding the old content followed by the prefix that fits.", "quantifier": "every ring state and buffer", "why_tests_cant": "All sizes and wrap positions.", "anchors": ["src/io/ring.rs: Write for Ring", "src/io/mod.rs: SeqWrite::write_into"]}
{"id": "C38", "title": "Ring::clear empties the ring for good", "statement": "After clear() the ring is empty with full capacity, and every later history behaves like that of a fresh ring.", "quantifier": "every prior history and every later history", "why_tests_cant": "Stale positions could resurface only after particular sequences.", "anchors": ["src/io/ring.rs: Ring::clear"]}
{"id": "C39", "title": "Line reading over a Ring", "statement": "read_until(delim) on a Ring returns the readable bytes up to and including the first delimiter, or all of them if there is none, and removes exactly those.", "quantifier": "every ring state and delimiter", "why_tests_cant": "All contents and wrap positions.", "anchors": ["src/io/ring.rs: BufRead for Ring"]}
{"id": "C40", "title": "Ring honours the bytes::Buf/BufMut contracts", "statement": "remaining() equals chunk().len(), remaining_mut() equals chunk_mut().len(), advance(n)/advance_mut(n) with n within range move exactly n, and put_slice followed by reads of chunk returns the bytes put.", "quantifier": "every ring state and count", "why_tests_cant": "Contract over all states.", "anchors": ["src/io/bytes.rs: Buf for Ring, BufMut for Ring"]}
{"id": "C41", "title": "InfiniteRing keeps exactly the most recent bytes", "statement": "Over any sequence of write, write_all, read and consume calls the readable bytes of an InfiniteRing are the most recent bytes of the written stream that have not been consumed, at most the capacity.", "quantifier": "every capacity and every history", "why_tests_cant": "Overwriting and wrap-around interact over unbounded histories.", "anchors": ["src/io/ring.rs: InfiniteRing", "src/io/mod.rs: SeqWrite::write_into"]}
{"id": "C42", "title": "Oversized InfiniteRing writes", "statement": "write(buf) stores the first capacity bytes and reports that count; write_all(buf) always succeeds and leaves the last capacity bytes readable.", "quantifier": "every buffer, every state", "why_tests_cant": "Sizes beyond the capacity at all positions.", "anchors": ["src/io/ring.rs: InfiniteRing::write_all, feed"]}
{"id": "C43", "title": "InfiniteRing::feed never fails", "statement": "feed(n) makes min(capacity, readable + n) bytes readable for every n and never panics.", "quantifier": "every n in usize and every state, overflow checks on or off", "why_tests_cant": "Only n near 2^64 overflows.", "anchors": ["src/io/ring.rs: InfiniteRing::feed"]}
{"id": "C44", "title": "BufReader delivers the stream unchanged", "statement": "Over any mix of read, fill_buf, consume and set_lowat calls, the bytes delivered so far followed by the buffered bytes are exactly the bytes the inner reader produced, with no loss, duplication or reordering, also across errors and panics of the inner reader.", "quantifier": "every inner reader behaviour, every call sequence, every low-water mark and capacity", "why_tests_cant": "Unbounded interleavings of short reads, errors and direct reads.", "anchors": ["src/io/buffer.rs: BufReader::read, fill_buf, consume, buffer"]}
{"id": "C45", "title": "BufReader asks the inner reader only when needed", "statement": "fill_buf() calls the inner reader at most once and only when the buffered length is at or below the low-water mark; read() bypasses the buffer only when nothing is buffered and the destination is at least the capacity.", "quantifier": "every state and low-water mark", "why_tests_cant": "Call-count behaviour over all states.", "anchors": ["src/io/buffer.rs: BufReader::fill_buf, read, set_lowat"]}
{"id": "C46", "title": "BufReader reports end of input only at the end", "statement": "read() into a non-empty buffer returns 0 only if nothing is buffered and the inner reader just returned 0.", "quantifier": "every state and inner behaviour", "why_tests_cant": "All short-read patterns.", "anchors": ["src/io/buffer.rs: BufReader::read"]}
{"id": "C47", "title": "BufWriter never loses or duplicates bytes", "statement": "At every point of any call sequence the bytes the inner writer accepted together with the buffered ones are, as a multiset, exactly the bytes reported as written.", "quantifier": "every inner writer behaviour (short writes, errors, interrupts, panics), every call sequence", "why_tests_cant": "Unbounded error schedules.", "anchors": ["src/io/buffer.rs: BufWriter::write, flush_buf"]}
{"id": "C48", "title": "BufWriter preserves order", "statement": "The bytes accepted by the inner writer followed by the buffered bytes are the reported-written bytes in order.", "quantifier": "every call sequence, buffer length and capacity", "why_tests_cant": "Order breaks only for one exact length relation.", "anchors": ["src/io/buffer.rs: BufWriter::write, flush_buf"]}
{"id": "C49", "title": "BufWriter::flush delivers everything", "statement": "If flush() returns Ok the buffer is empty, all bytes have been given to the inner writer, and the inner flush was called after them and succeeded; if it returns an error the undelivered bytes stay buffered.", "quantifier": "every inner behaviour and buffered content", "why_tests_cant": "All schedules of short writes and errors.", "anchors": ["src/io/buffer.rs: BufWriter::flush, flush_buf"]}
{"id": "C50", "title": "BufWriter::into_inner flushes or hands everything back", "statement": "into_inner() returns the writer only after the whole buffer was delivered; otherwise the error carries the cause and a BufWriter whose buffer holds exactly the undelivered suffix.", "quantifier": "every inner behaviour", "why_tests_cant": "Every failure point of the flush loop.", "anchors": ["src/io/buffer.rs: BufWriter::into_inner, IntoInnerError"]}
{"id": "C51", "title": "BufWriter::into_parts and panics", "statement": "into_parts() never writes; it returns the ring unchanged, wrapped in WriterPanicked exactly when the most recent inner write panicked; after such a panic dropping the writer does not write again.", "quantifier": "every history of calls and inner behaviours including panics", "why_tests_cant": "Panic points cannot be enumerated.", "anchors": ["src/io/buffer.rs: BufWriter::into_parts, flush_buf, write, Drop"]}
{"id": "C52", "title": "Dropping a BufWriter attempts delivery", "statement": "Dropping a BufWriter whose writer did not panic writes the buffered bytes in order until done or until the first hard error; bytes delivered are always a prefix of those buffered.", "quantifier": "every inner behaviour", "why_tests_cant": "All failure points.", "anchors": ["src/io/buffer.rs: BufWriter::drop"]}
{"id": "C53", "title": "Errors keep their cause and operation", "statement": "Every error keeps the operation it was created with; kind() and raw_os_error() are those of the wrapped error (InvalidInput / none for input errors); converting to std::io::Error keeps kind and OS code, and an io::Error converted to Error and back is the original.", "quantifier": "every error value", "why_tests_cant": "Algebraic law over all error values.", "anchors": ["src/error.rs: Error, From impls"]}
{"id": "C54", "title": "Error messages identify the operation", "statement": "An error is displayed as 'failed to <operation>, <cause>' or just the cause when there is no operation; different operations have different texts.", "quantifier": "every error value and operation", "why_tests_cant": "Law over all values.", "anchors": ["src/error.rs: Display for Error, Operation::as_str, Input::as_str"]}
{"id": "C55", "title": "Option builder calls compose", "statement": "The option setters are independent except write()/copy(), the last call of each setter wins, create/create_new/truncate without write access is refused by open, and a fresh MapMut builder has write access.", "quantifier": "every sequence of builder calls", "why_tests_cant": "All orders of calls.", "anchors": ["src/map.rs: Options setters, Options::new, MapMut::with_options"]}
{"id": "C56", "title": "Temporary shared-memory names are valid", "statement": "On platforms without anonymous memory descriptors the generated name is always a NUL-terminated 13-character path with no interior NUL, so name generation never panics, and name collisions are retried while any other error is returned.", "quantifier": "every clock value and every OS answer sequence", "why_tests_cant": "Clock dependent.", "anchors": ["src/os/unix/posix/memfd.rs: memfd_open"]}
{"id": "C57", "title": "A MapMut is always writable", "statement": "Storing a byte anywhere inside a MapMut obtained from safe API calls succeeds; it never faults.", "quantifier": "every way of building a MapMut with the safe API, every index", "why_tests_cant": "Only one unusual constructor yields read-only pages behind a MapMut.", "anchors": ["src/map.rs: Options::new, Options::default, MapMut::with_options, MapMut::deref_mut"]}
{"id": "C58", "title": "Every reported failure names the right operation", "statement": "Each failing system call surfaces as an error carrying the Operation of the public call that failed (map file, map anonymous, protect, advise, lock, unlock, flush, memory fd, ring stages).", "quantifier": "every API call and every OS error code", "why_tests_cant": "Needs fault injection at every system call.", "anchors": ["src/os/unix/mod.rs", "src/os/unix/posix/mod.rs", "src/map.rs: map_file_err"]}
{"id": "C59", "title": "Misbehaving inner objects cannot break memory safety", "statement": "Even when the inner reader claims more bytes than it was given room for, scribbles and fails or panics, or the inner writer claims to have accepted more than it was handed, no call of the buffered objects touches memory outside the ring, and buffered plus free bytes still equal the capacity.", "quantifier": "every history of calls of any length, every (also contract-breaking) inner reader or writer, every target", "why_tests_cant": "Needs adversarial inner objects at every step.", "anchors": ["src/io/buffer.rs: fill_buf, read, flush_buf, write, drop", "src/io/ring.rs: feed, consume"]}
{"id": "C60", "title": "BufReader read_until and read_exact", "statement": "read_until delivers exactly the bytes up to and including the first delimiter, or everything up to the end of input; read_exact delivers exactly the requested count or fails; both retry interrupts and stop for no other answer than an end of input, an error (reported as it is) or a panic of the inner reader, and a failure leaves every undelivered byte in the buffer or the source.", "quantifier": "every stream, buffer state, source behaviour, delimiter and count", "why_tests_cant": "Depends on how the source splits the stream and where it fails.", "anchors": ["src/io/buffer.rs: BufRead for BufReader, Read for BufReader"]}
{"id": "C61", "title": "Windows views: one per map, no handle kept", "statement": "On Windows map_file and map_anon close the section handle on every path, name the failing call, and on success add exactly one view of exactly the requested range with the requested protection and nothing else; on failure nothing.", "quantifier": "every file state, offset, length, protection, kernel answer and interference of other threads", "why_tests_cant": "Handle leaks on error paths are not visible to tests, which also only run on the host platform.", "anchors": ["src/os/windows.rs: MapHandle, map_file, map_anon"]}
{"id": "C62", "title": "Windows flush is durable", "statement": "On Windows a synchronous flush that returns Ok has put every byte of the file shown by the flushed shared pages on storage; no flush changes memory; a refusal of either call is reported as a flush error.", "quantifier": "every range, mode, file access and kernel answer", "why_tests_cant": "Needs a crash after the flush.", "anchors": ["src/os/windows.rs: flush"]}
{"id": "C63", "title": "Windows rings are released as a whole", "statement": "On Windows creating a ring with any hint, any stores and dropping it leaves pages, views, reservations, handles and files as before; a refused release is the only way to leave something mapped.", "quantifier": "every hint, stores, kernel answers and interference of other threads", "why_tests_cant": "A refusal of UnmapViewOfFile cannot be provoked.", "anchors": ["src/os/windows.rs: map_ring, unmap_ring", "src/io/ring.rs: Ring::new, Drop for Ring"]}
{"id": "C64", "title": "Windows page operations touch exactly the pages asked for", "statement": "On Windows protect, lock and unlock change exactly the pages meeting the range, or nothing when they fail with the error of the operation.", "quantifier": "every range, protection and prior state", "why_tests_cant": "Page-level effects are not observable from unit tests.", "anchors": ["src/os/windows.rs: protect, lock, unlock"]}
{"id": "C65", "title": "Windows: making a map", "statement": "On Windows Options::map/map_if/alloc give a map whose length follows the requested extent and the (possibly resized) file, show exactly the file from the requested offset (or zeros), allow stores exactly with ReadWrite and ReadCopy, add exactly one view at a free aligned place, and keep no handle; without a map nothing is added.", "quantifier": "every options value, file, prior address space and kernel answer", "why_tests_cant": "Needs Windows, refused calls, and a view of the whole address space.", "anchors": ["src/map.rs: Options::map_if, alloc", "src/os/windows.rs: map_file, map_anon"]}
{"id": "C66", "title": "Windows: dropping a map releases exactly its view", "statement": "On Windows, after any history of calls, dropping a map unmaps exactly the one view it was given, with every page of the map, and touches nothing else.", "quantifier": "every history of calls on maps and rings, every map length, kernel answer", "why_tests_cant": "Leaks and the base address computation are not visible in tests.", "anchors": ["src/map.rs: Drop for MapMut", "src/os/windows.rs: unmap"]}
{"id": "C67", "title": "Windows: maps and rings do not interfere", "statement": "On Windows, after any history of calls, anonymous maps and rings can be read at every index below their size, their bytes change only by stores through themselves, ring halves are the same memory, stores change exactly the byte stored to, and shared maps show the file as it is.", "quantifier": "every history of maps, rings, stores, drops, conversions, page operations, closed descriptors, and every kernel answer", "why_tests_cant": "Interference between live mappings depends on where the kernel puts them.", "anchors": ["src/map.rs", "src/io/ring.rs: Ring::new, Drop", "src/os/windows.rs"]}
{"id": "C68", "title": "Windows: nothing is left behind", "statement": "On Windows, after any history in which the kernel refused no release, the views and pages that exist are exactly those of the live maps and rings; when all are dropped the process is as at the beginning.", "quantifier": "every history of calls and kernel answers", "why_tests_cant": "A leak is only visible in the state of the kernel.", "anchors": ["src/map.rs: Drop for MapMut", "src/io/ring.rs: Drop for Ring", "src/os/windows.rs"]}
{"id": "C69", "title": "Windows: into_map_mut", "statement": "On Windows into_map_mut of a map of a file that is open for writing succeeds, unless the kernel refuses; a failure gives the map back unchanged.", "quantifier": "every map of every history", "why_tests_cant": "Platform specific, the tests run elsewhere.", "anchors": ["src/map.rs: into_map_mut", "src/os/windows.rs: protect"]}
{"id": "C70", "title": "Windows: a synchronous flush through a map is durable", "statement": "On Windows flush and flush_range in Sync mode on a shared map that return Ok have put every byte of the range on storage as it is in memory; they need the file to be open for writing; memory never changes.", "quantifier": "every map of every history, every range of positive length in it, every kernel answer", "why_tests_cant": "Needs a crash after the flush.", "anchors": ["src/map.rs: flush, flush_range", "src/os/windows.rs: flush"]}
{"id": "C71", "title": "Windows: calls on part of a map", "statement": "On Windows the range calls (flush, advise, lock, unlock) fail with InvalidRange and their own operation exactly if the range does not lie inside the map, and then change nothing; lock and unlock pin exactly the pages that meet the range and change no byte of any map or ring; advice changes nothing.", "quantifier": "every map of every history, every offset and length, every kernel answer, both widths, with and without overflow checks", "why_tests_cant": "The wrapping offsets are never tried; pins are invisible to a program.", "anchors": ["src/map.rs:312-381", "src/os/windows.rs: lock, unlock, advise"]}
{"id": "C72", "title": "Windows: opening and mapping files, MapMut::new", "statement": "On Windows open and map are open_if and map_if with InvalidRange instead of None; a success of open leaves exactly one more descriptor, of the named file with the access asked for, a failure none; map opens and closes nothing; MapMut::new gives at least hint writable zero bytes up to the end of the allocation unit.", "quantifier": "all options, paths, states and kernel answers, including failures at any point", "why_tests_cant": "Failures between open and map cannot be provoked; leaked descriptors are invisible.", "anchors": ["src/map.rs:1067-1219", "src/map.rs:256-258"]}
{"id": "C73", "title": "Windows: errors name the operation", "statement": "On Windows every error returned by a call on maps and rings names an operation of that call; reads, stores, close and drop return none.", "quantifier": "every call in every state, reachable or not", "why_tests_cant": "Needs each Win32 call to fail once.", "anchors": ["src/map.rs", "src/os/windows.rs", "src/error.rs"]}
{"id": "C74", "title": "Rings in a program: the answers of a queue, end to end", "statement": "A Ring (InfiniteRing) made by Ring::new(hint) at any point of any program answers every later call exactly as a FIFO queue (a sliding window) of the rounded-up capacity that was empty and zeroed when it was made, where the ring code reads and writes the two mappings of the kernel at the addresses it computes; what the program does to maps, files and other rings in between, and what the kernel answers, has no influence; a call that must panic changes nothing.", "quantifier": "every program (history of calls on any number of maps, files and rings), every kernel answer, every hint, both kinds of memory files", "why_tests_cant": "Tests use one ring at a time and never in memory shared with live maps.", "anchors": ["src/io/ring.rs", "src/io/mod.rs", "src/io/bytes.rs", "src/os/unix/posix/mod.rs: map_ring"]}
{"id": "C75", "title": "Rings and maps never touch each other", "statement": "In every state of every program the address ranges of all live rings (both halves) and maps are disjoint; making, using or dropping a ring changes no readable byte but the ring's own, no file, no descriptor and no map; no call on a ring ever faults, even after 2^64 bytes; a ring and the memory it shows are changed by its own calls only.", "quantifier": "every program, every kernel answer, every address", "why_tests_cant": "Corruption of unrelated memory is invisible to unit tests.", "anchors": ["src/io/ring.rs", "src/map.rs", "src/os/unix/mod.rs", "src/os/unix/posix/mod.rs"]}
{"id": "C76", "title": "Nothing stays mapped", "statement": "At every point of a program exactly those pages are mapped that were before it started or belong to a live map or ring; after everything is dropped the mapped pages are those at the start (failed calls, including failures half way through making a ring, leave none behind).", "quantifier": "every program, every kernel answer in which the kernel does not refuse to unmap, no drop of a map of length 0", "why_tests_cant": "Leaked pages are invisible to the program.", "anchors": ["src/map.rs: Drop for MapMut", "src/io/ring.rs: Drop for Ring", "src/os/unix/mod.rs: unmap", "src/os/unix/posix/mod.rs: unmap_ring"]}
{"id": "C77", "title": "Windows: rings in a program answer like queues, end to end", "statement": "On Windows a Ring (InfiniteRing) made by Ring::new(hint) at any point of any program answers every later call exactly as a FIFO queue (a sliding window) of the rounded-up capacity that was empty and zeroed when it was made, where the ring code reads and writes the two views at the addresses it computes; maps, files, other rings, other threads racing for addresses and kernel answers have no influence; a call that must panic changes nothing.", "quantifier": "every program (history of calls on any number of maps, files and rings), every kernel answer and every race for addresses, every hint", "why_tests_cant": "The Windows code is not even compiled by the tests on other systems; races cannot be provoked.", "anchors": ["src/io/ring.rs", "src/io/mod.rs", "src/os/windows.rs: map_ring"]}
{"id": "C78", "title": "Windows: rings and maps never touch each other", "statement": "On Windows the bytes of rings and anonymous maps change only by calls on themselves; a call on a ring returns or panics, never faults, changes nothing readable through any other map or ring, no file, descriptor, view, reservation or page, and makes no system call; everything proved of histories of maps on Windows also holds of programs with working rings.", "quantifier": "every program, every kernel answer, every byte of every map and ring", "why_tests_cant": "Corruption of unrelated memory is invisible to unit tests.", "anchors": ["src/io/ring.rs", "src/map.rs", "src/os/windows.rs"]}
{"id": "C79", "title": "Windows: nothing stays mapped in programs with rings", "statement": "On Windows, at every point of a program, the views and mapped pages are exactly those of the maps and rings still held, and reservations and handles those of the start; after everything is dropped nothing is mapped.", "quantifier": "every program in which the kernel refuses no release and no map of no bytes is dropped", "why_tests_cant": "Leaked views are invisible to the program.", "anchors": ["src/map.rs: Drop for MapMut", "src/io/ring.rs: Drop for Ring", "src/os/windows.rs: unmap_ring, map_ring"]}
{"id": "C80", "title": "Exactly which ring capacities stay queues for ever", "statement": "A Ring (InfiniteRing) of a given capacity answers every history of calls, whatever its length, as the bounded (lossy) queue does - except that a build with overflow checks panics at the call that would bring the bytes entered since the last clear to 2^64 - if and only if the capacity divides 2^bits of the target's word, or the target is 64-bit with overflow checks.", "quantifier": "every target, capacity, initial memory and history of calls, in both directions", "why_tests_cant": "The failing histories carry 2^32 or 2^64 bytes; the claim also quantifies over all capacities.", "anchors": ["src/io/ring.rs: read_offset, write_offset, feed, consume", "src/io/mod.rs: SeqRead, SeqWrite"]}
{"id": "C81", "title": "macOS: rings in a program answer like queues, end to end", "statement": "On macOS and iOS a Ring (InfiniteRing) made by Ring::new(hint) at any point of any program answers every later call exactly as a FIFO queue (a sliding window) of the rounded-up capacity that was empty and zeroed when it was made, where the ring code reads and writes the two Mach mappings at the addresses it computes; maps, files, other rings, failed attempts and kernel answers have no influence; a call that must panic changes nothing.", "quantifier": "every program (history of calls on any number of maps, files and rings), every kernel answer, every hint whose double fits the word", "why_tests_cant": "The Mach code is not even compiled by the tests on other systems.", "anchors": ["src/io/ring.rs", "src/io/mod.rs", "src/os/unix/mach.rs"]}
{"id": "C82", "title": "macOS: rings and maps never touch each other", "statement": "On macOS and iOS, in every state of every program, the address ranges of all live rings and maps are disjoint; making a ring, failing to make one at any of its four calls, using or dropping one changes no readable byte but the ring's own, no file, no descriptor and no map; no call on a ring ever faults; a ring and the memory it shows are changed by its own calls only.", "quantifier": "every program, every kernel answer, every address", "why_tests_cant": "Corruption of unrelated memory is invisible to unit tests.", "anchors": ["src/io/ring.rs", "src/map.rs", "src/os/unix/mach.rs"]}
{"id": "C83", "title": "macOS: nothing stays mapped in programs with rings, but every ring leaks a port", "statement": "On macOS and iOS, at every point of a program, exactly those pages are mapped that were before it started or belong to a live map or ring, and after everything is dropped the mapped pages are those at the start; the task holds exactly one port right more for every ring ever made and for every attempt that failed in its last call, and no drop gives one back.", "quantifier": "every program; for the pages, every kernel answer in which the kernel refuses no deallocation and no map of length 0 is dropped; for the ports, every kernel answer", "why_tests_cant": "Leaked pages and ports are invisible to the program until the limit is reached.", "anchors": ["src/map.rs: Drop for MapMut", "src/io/ring.rs: Drop for Ring", "src/os/unix/mach.rs: map_ring, unmap_ring"]}
{"id": "C84", "title": "Exactly which buffers keep a stream of any length", "statement": "A BufReader delivers its source's bytes in order over every history, whatever its length, if and only if the capacity of its ring divides 2^bits of the target's word and the build has no overflow checks (with checks, the fill that takes the position to 2^64 panics after the bytes have left the source, and they are lost). A BufWriter neither loses, duplicates nor invents bytes over every history - in the buffer, on flush, into_inner and drop, and in order apart from exact-fit writes - if and only if the capacity divides 2^bits or the target is 64-bit with overflow checks.", "quantifier": "every target, capacity, ring history before the writer was made, inner reader or writer that honours its contract, and history of calls, in both directions", "why_tests_cant": "The failing histories carry 2^32 or 2^64 bytes; the claim also quantifies over all capacities.", "anchors": ["src/io/buffer.rs: fill_buf, flush_buf, write, into_inner, drop", "src/io/ring.rs: read_offset, write_offset, feed, consume"]}
{"id": "C85", "title": "Every mapped page is accounted for, whatever the kernel refuses", "statement": "At every point of a program that uses maps and rings together, whatever the kernel has refused, the mapped pages are exactly those mapped before it started, those of the live maps and rings, and those left behind by earlier calls; no page is in two of these sets. A call leaves pages behind in three cases only: it drops a map of length 0 (all pages of the map), it drops a map or ring and the kernel refuses to release it (all its pages), or it fails to make a ring and the kernel also refuses the last thing it is asked (pages of one range, no larger than the two halves of the ring). No other call leaves or takes back a page left behind. On Windows the mapped pages are exactly those of the views and of the reservations made since the start, each page of one only; no section handle stays open; a view no map or ring answers for, and a reservation, stays as it is under every call; a new one comes from dropping a map of length 0, or from a release refused during a drop or while a ring is made; making a ring leaves at most one of them for each of its at most six failed attempts, each no larger than the ring.", "quantifier": "every program (sizes that do not wrap, C22 and C31), POSIX, macOS and Windows, every sequence of kernel answers", "why_tests_cant": "Pages left behind are invisible to the program, and the failing kernel calls cannot be provoked by a test.", "anchors": ["src/map.rs: Drop for MapMut", "src/io/ring.rs: Drop for Ring", "src/os/unix/posix/mod.rs: map_ring, unmap_ring", "src/os/unix/mach.rs: map_ring, unmap_ring", "src/os/windows.rs: map_ring, map_ring_handle, reserve, unmap, unmap_ring"]}
{"id": "C86", "title": "A socket wrapped in a reader and a writer: two independent streams", "statement": "For a socket wrapped in a BufReader, a BufWriter or both, in either order, and any interleaving of reads and writes: the calls of one direction have exactly the results, and leave the reader (writer) in exactly the state, they would have on a BufReader (BufWriter) alone, whatever happens in the other direction; a direction that is not buffered reaches the socket within the call, and nothing is read ahead or held back. What was delivered, is buffered and has not been read is what arrived; what was reported written is what the socket accepted plus what is pending. Dropping the object flushes the writer and leaves the arriving bytes alone.", "quantifier": "every target, capacity, state of the object, socket (any answers in either direction), interleaving of calls, for BufReader<S>, BufWriter<S>, BufReader<BufWriter<S>> and BufWriter<BufReader<S>>; the byte streams for sockets honouring the contracts and fewer than 2^64 bytes or exact capacities", "why_tests_cant": "Interleavings of the two directions with short, interrupted and failing calls are unbounded.", "anchors": ["src/io/buffer.rs: impl Write for BufReader, impl Read for BufWriter, fill_buf, read, write, flush, drop"]}
{"id": "C87", "title": "Messages arrive as sent", "statement": "When one peer sends messages with write_all and flushes, and the other receives them with read_until (messages ending in a byte they do not contain) or read_exact (messages of known length), and all these calls succeed, the k-th call receives exactly the k-th message - provided no message exactly fits the free space of a non-empty write buffer (then it overtakes earlier bytes, C48).", "quantifier": "every list of messages, target, capacities of the four rings, order of the wrappers at both ends, sizes of the pieces in which the bytes travel, interrupts, and traffic in the other direction", "why_tests_cant": "The piece sizes, capacities and interleavings are unbounded; the failing case needs an exact fit.", "anchors": ["src/io/buffer.rs: write, flush, flush_buf, fill_buf, consume, read"]}
{"id": "C88", "title": "Other processes: what the program sees of them, and what it does not", "statement": "When other processes make, unlink, link, grow, cut or write files between the calls of a program: no map, descriptor or mapped page of the program goes away or moves; a write is seen at once through every shared map of the file, exactly the written bytes at their file offsets; acts on other files or on names alone are not seen; after a cut a byte of a shared map can be loaded if and only if its page begins before the new end, and reads 0 behind the end; a page of a private map to which the program has stored shows no change unless the file is cut; anonymous maps and rings show no change at all - except that on platforms with named shared memory a refused shm_unlink, which the crate ignores, leaves the ring's memory open to others. All history properties (C10-C26, C57, C74-C76, C81-C83, C85) hold with such acts in the history.", "quantifier": "every reachable state of every program, every act and sequence of acts, every kernel answer (POSIX; rings also macOS)", "why_tests_cant": "Interleavings with other processes are not controlled by tests.", "anchors": ["src/map.rs", "src/io/ring.rs", "src/os/unix/posix/memfd.rs: memfd_open"]}
{"id": "C89", "title": "Every access and every check, decided", "statement": "In any state a program reaches, in builds with and without overflow checks: a load through a map panics outside the map and inside it faults if and only if its page begins at or behind the end of the file (otherwise a shared map gives the file's byte); a store through a MapMut faults if and only if its page begins at or behind the end of the file or the map was created without a protection for writing and has never been converted, and then changes nothing; reading a scalar inside a map panics if and only if it is volatile and misaligned, and else faults if and only if the page of its last byte begins at or behind the end, and writing one also if the map was never writable; on a slice a scalar access returns, panics or leaves the slice exactly as the wrapped sum of the bounds check says; a sub-range call whose end wraps is refused if and only if the wrapped end lies behind the map, and else works on pages in front of it; an anonymous allocation whose size wraps and succeeds has mapped exactly one page, whatever length it claims.", "quantifier": "every reachable state, map, index, offset, length, size, scalar type, alignment table, kernel answer and build (POSIX)", "why_tests_cant": "The decisive arguments lie at the word size, at file ends moved by others, and in histories of conversions; tests sample a few.", "anchors": ["src/map.rs: Deref, DerefMut, flush_range, advise_range, lock_range, unlock_range, alloc", "src/lib.rs: assert_capacity, assert_alignment, read_volatile, read_unaligned, write_volatile, write_unaligned"]}
{"id": "C90", "title": "std's provided methods, and programs that react, on rings", "statement": "On a Ring or InfiniteRing in use: read_exact returns the next n bytes, or all of them and UnexpectedEof exactly when fewer are there; read_to_end returns all; read_until, read_line and split cut at the delimiter (a line that is not UTF-8 is an error and is consumed all the same); read_vectored and write_vectored serve exactly the first non-empty buffer; write! appends its fragments until the ring is full, with WriteZero exactly when they do not all fit (InfiniteRing: keeps the newest bytes, never fails); Buf::copy_to_slice panics exactly when too little is there. Nothing is lost: what a method did not return is still in the ring, in order. Any program that chooses each call by the answers before it gets from the ring the answers of the queue.", "quantifier": "every target, ring in use (C34-C43, C80), length, delimiter, validity predicate, buffer list, fragment list, chunk sizes chosen by std, and adaptive program (for exact capacities, C80)", "why_tests_cant": "Capacities, positions of the wrap, chunk sizes and adaptive programs are unbounded.", "anchors": ["src/io/ring.rs: impl BufRead, Read, Write for Ring and InfiniteRing", "src/io/mod.rs: read_from, write_into", "src/io/bytes.rs: impl Buf for Ring"]}
{"id": "C91", "title": "Mapping a file while others change it: decided by the length that fstat found", "statement": "map_if and open_if make several system calls (open, fstat, ftruncate up to twice, mmap), between which other threads of the program and other processes may do anything. If the call answers, then with no map exactly when its options do not fit the length that fstat found (after its own truncation and resize), and else with a new map of the file the descriptor stood for, of the length that follows from that length, showing the file's bytes as far as the file reaches at that moment; the bytes behind are fatal to load. Hence resize with Min can shorten a file that somebody made longer meanwhile, and with Max lengthen one that somebody cut. A call ends after a bounded number of its own system calls, whatever the others do (but for the search for a free name of a ring on platforms with named memory). Run without interruption the stages are exactly the call the other properties are about.", "quantifier": "every interleaving of any number of threads, each possibly in the middle of a call that makes a map or ring, and of other processes; every kernel answer, file, option and build (POSIX)", "why_tests_cant": "A test cannot place another process between two system calls of one call.", "anchors": ["src/map.rs: open, open_if, map, map_if", "src/os/unix/mod.rs: map_file", "src/os/unix/posix/mod.rs: map_ring", "src/os/unix/posix/memfd.rs"]}
{"id": "C92", "title": "Calls in progress do not touch each other's memory", "statement": "While any number of threads make maps and rings at the same time, the memory of every map, every ring and every call in progress (the region a ring allocation has reserved, or half filled) is disjoint from all others and stays mapped; the bytes of a ring change by its own calls only; and a ring whose allocation was interrupted at any of its system calls answers all later calls like a queue that was empty when it was made.", "quantifier": "every interleaving of the stages of all calls that make maps and rings, of all other calls, and of acts of other processes; every kernel answer (POSIX)", "why_tests_cant": "The race - somebody else mapping memory between the reservation of a ring and the placing of its two halves - cannot be provoked by a test.", "anchors": ["src/os/unix/posix/mod.rs: map_ring, wrap_fd, wrap_ptr", "src/map.rs: map_if", "src/io/ring.rs"]}
{"id": "C93", "title": "Calls in progress leave nothing behind", "statement": "While any number of threads are in the middle of calls that make maps or rings, every mapped page was mapped at the start, or belongs to one map or ring, or is reserved by one call in progress, or was left by a munmap that the kernel refused; and every open descriptor is the program's (open at the start, or handed to it and not yet closed) or that of exactly one call in progress. So a call that fails at any of its system calls, however it is interleaved with others, leaves no memory and no file open, and no call closes a descriptor that is not its own.", "quantifier": "every interleaving of the stages of all calls that make maps and rings, of all other calls, and of acts of other processes; every kernel answer, including refusals at each stage (POSIX)", "why_tests_cant": "A test cannot make each system call fail at each moment of each interleaving; leaks are invisible to assertions on results.", "anchors": ["src/os/unix/posix/mod.rs: map_ring, wrap_fd, wrap_ptr", "src/os/unix/posix/memfd.rs", "src/map.rs: open_if, map_if", "src/os/unix/mod.rs: map_file"]}
{"id": "C94", "title": "The inner object used directly, between calls on the wrapper", "statement": "get_mut, DerefMut and AsMut of BufReader and BufWriter hand out the inner object. Reads on the inner reader and reads through the buffer, in any order, cut the stream into consecutive pieces: a direct read gets exactly its piece, the pieces taken by the buffer come out of it in order and without loss, what is still buffered excepted; into_inner leaves the inner reader behind all of them. A direct write reaches the inner writer at once, ahead of what is buffered, and never inside a piece; what went through the buffer is accepted once, in order (but for C48). If the buffer is empty at every direct call, everything comes in the order of the calls.", "quantifier": "every target, capacity, stream, history of calls on the wrapper and of direct calls, behaviour of the inner object (short, interrupted, failing, panicking calls), build", "why_tests_cant": "The order of bytes depends on what is buffered at each direct call, over unbounded histories and inner behaviours.", "anchors": ["src/io/buffer.rs: BufReader::get_ref, get_mut, into_inner, Deref, DerefMut, AsRef, AsMut", "src/io/buffer.rs: BufWriter::get_ref, get_mut, Deref, DerefMut, AsRef, AsMut"]}
{"id": "C95", "title": "Buffered readers and writers inside programs", "statement": "The functions of BufReader and BufWriter, executed call by call on a ring that is memory of the kernel, by a process that between any two of these calls may use maps, files and other rings in any way, while other processes act: every call on the ring is answered, nothing faults, and the bytes delivered, buffered and left are those of the stream, in order; for a writer, used and dropped, what was reported as written is what the inner writer took and what is still in the ring. Answers and errors are those of the object alone: nothing else in the program can change them. On POSIX systems, macOS and Windows.", "quantifier": "every target of the platform, reachable state of a process, hint, stream, history of calls, behaviour of the inner object, and every interleaving with other calls of the process and acts of other processes", "why_tests_cant": "The interleavings, the addresses and the kernel answers are unbounded; a test sees one process with one layout.", "anchors": ["src/io/buffer.rs: BufReader, BufWriter", "src/io/ring.rs: Ring", "src/os/unix/posix/mod.rs: map_ring", "src/os/unix/mach.rs: map_ring", "src/os/windows.rs: map_ring"]}
{"id": "C96", "title": "std's provided methods and io::copy on buffered readers and writers", "statement": "read_to_end, read_to_string, read_line, split, lines and write_fmt as std provides them for BufReader and BufWriter, and std::io::copy from one to the other, neither lose, repeat nor reorder bytes of the stream: what a method took, what is buffered and what the inner reader still has are together what was there; the buffer stays usable and all other claims hold for the calls that follow. read_to_end ends with success only when the inner reader reported its end and the buffer is empty; Interrupted never ends a method; an error or panic is the inner object's. A string holds the bytes taken if they are UTF-8, else it is as before (the bytes are gone). split and lines give exactly the pieces and lines of the stream, in order; at an error, of the part before the unfinished piece. copy: if it succeeds and the writer is flushed, the whole stream is at the inner writer behind what was buffered; if it fails, exactly the bytes of the last piece that were read and not reported as written are lost.", "quantifier": "every target, capacity, stream, history of calls before, chunk sizes chosen by std, notion of valid text, fragments, behaviour of the inner objects (short, interrupted, failing, panicking calls), build", "why_tests_cant": "Streams, chunkings and failure positions are unbounded; tests use a handful of inputs and inner objects that never fail.", "anchors": ["src/io/buffer.rs: impl Read for BufReader, impl BufRead for BufReader", "src/io/buffer.rs: impl Write for BufWriter"]}
{"id": "C97", "title": "Between the system calls of one call on Windows", "statement": "map_if, open_if, alloc, Ring::new and the drop of a ring make several system calls (CreateFile, GetFileInformationByHandle, SetEndOfFile, CreateFileMapping, VirtualAlloc, VirtualFree, MapViewOfFile(Ex), UnmapViewOfFile, CloseHandle), between which other threads of the program may do anything. If map_if or open_if answers, then with no map exactly when its options do not fit the length found (after its own truncation and resize), and else with a new map of the file its handle stood for when the section was created, with the length that follows from the length found, showing the file's bytes; alloc answers with zeros, of the length asked for. A call ends after a bounded number of its own system calls whatever the others do. Ring::new can fail though the kernel grants everything it is asked for, because each of its six places can be lost to another thread. Run without interruption the stages are exactly the calls the other properties are about.", "quantifier": "every interleaving of any number of threads, each possibly in the middle of a call; every kernel answer, file, option and build (Windows)", "why_tests_cant": "A test cannot place another thread between two given system calls of one call.", "anchors": ["src/map.rs: open_if, map_if, alloc", "src/os/windows.rs: MapHandle, map_file, map_anon, reserve, map_ring_handle, map_ring, unmap_ring"]}
{"id": "C98", "title": "Calls in progress on Windows do not touch each other's memory and handles", "statement": "While any number of threads make maps and rings and drop rings at the same time, the memory of every map, every ring and every call in progress (addresses reserved, one half of a ring mapped or not yet unmapped) is disjoint from all others and stays in the page table; rings and anonymous maps change by calls on themselves only; every section handle is one that was open at the start or belongs to exactly one call in progress, so none leaks and none is closed twice; and a ring whose allocation was interrupted at any of its system calls, lost places included, answers all later calls like a queue that was empty when it was made.", "quantifier": "every interleaving of the stages of all calls that make maps and rings and drop rings, and of all other calls; every kernel answer, including refusals at each stage (Windows)", "why_tests_cant": "The race the code is written for - another thread taking the addresses between VirtualFree and MapViewOfFileEx - cannot be provoked by a test, let alone six times.", "anchors": ["src/os/windows.rs: MapHandle, map_file, map_anon, reserve, map_ring_handle, map_ring, unmap_ring", "src/map.rs: map_if, alloc", "src/io/ring.rs"]}
{"id": "C99", "title": "Calls in progress on Windows leave nothing behind", "statement": "At every moment of every interleaving of threads that make maps and rings and drop rings, the mapped pages are exactly those of the views and of the reservations made since the start, each of one only. A view or reservation that no map, no ring and no call in progress answers for comes from dropping a map of length zero or from a release that the kernel refused, and from then on nothing touches it. If the kernel refuses to release nothing and no map of length zero is dropped, nothing is left behind, however many calls fail, at whichever system call, and however many places are lost to other threads: when everything is dropped and no call is in progress, nothing is mapped, and reservations and section handles are those of the start. Every open file is one the program has, or that of exactly one open_if in progress: a failing open_if closes its file and no other, and no call closes a file of the program or of another thread.", "quantifier": "every interleaving of the stages of all calls that make maps and rings and drop rings, and of all other calls; every kernel answer, including refusals at each stage (Windows)", "why_tests_cant": "Leaks are invisible to assertions on results, and a test cannot make each system call fail at each moment of each interleaving.", "anchors": ["src/os/windows.rs: MapHandle, map_file, map_anon, reserve, map_ring_handle, map_ring, unmap_ring, unmap", "src/map.rs: open_if, map_if, alloc, Drop for MapMut"]}
{"id": "C100", "title": "Buffered readers and writers inside programs, over any inner object", "statement": "Whatever the inner reader or writer does - report more bytes than there was room for, or other bytes than it stored, accept and deny, fail, panic - and however long the history, also when the ring's counters wrap or reach the end of their range: the calls that BufReader and BufWriter make on their ring, memory of the kernel in a process that may do anything else between any two of them, touch no memory but the ring's and never fault, and the answers, bytes and errors are those of the object alone. The only ring call that does not return is one whose counter overflows in a build with overflow checks, in a history in which the object alone panics too; after it the ring still answers, and never holds more than its capacity.", "quantifier": "every target of the platform, reachable state of a process, hint, stream, history of calls, script of answers of the inner object (counts any usize), and every interleaving with other calls of the process and acts of other processes", "why_tests_cant": "Inner objects that lie are not part of any test; histories that reach the end of the counters cannot be run.", "anchors": ["src/io/buffer.rs: BufReader, BufWriter", "src/io/ring.rs: Ring, feed, consume, as_write_slice, as_read_slice", "src/os/unix/posix/mod.rs: map_ring", "src/os/unix/mach.rs: map_ring", "src/os/windows.rs: map_ring"]}
{"id": "C101", "title": "Other processes on Windows", "statement": "Whatever other processes do to files between any two system calls of a program, by their names - make, unlink, link, lengthen, shorten, write - the program keeps every map, ring, call in progress, handle, view, reservation and page it has. A write is seen at once, byte for byte, through every map of the file that is not a copy; what is done to other files or to names alone is not seen; a page of a copy map that the program has stored to never changes unless the file is shortened. Anonymous maps and rings are reached by no act at all.", "quantifier": "every target, every interleaving of the program's threads with any calls in progress, every act and sequence of acts, every map, byte, file and length (Windows)", "why_tests_cant": "What other processes do, and when, is not under a test's control; the cases are unbounded.", "anchors": ["src/os/windows.rs: map_file, map_anon, map_ring, MapHandle", "src/map.rs: Map, MapMut, open_if, map_if, alloc", "src/io/ring.rs: Ring"]}
{"id": "C102", "title": "Every access to a map on Windows is decided", "statement": "In every state a program reaches on Windows: a load outside a map panics; inside, it faults exactly if the page of the file it falls on begins at or behind the end of the file, and otherwise gives the file's byte if the map is not a copy. A store through a MapMut outside the map panics; inside, it faults exactly if the page begins at or behind the end of the file or the map was made with a protection without writing (no conversion ever changes that), and then changes nothing; otherwise the byte is there afterwards, except behind the end of the file. Reading a scalar panics exactly if it is volatile and misaligned and faults exactly if its last byte's page is behind the end; writing one through a MapMut also if the protection does not write. A call on part of a map whose end wraps round the word is refused exactly if the wrapped end lies behind the map, and otherwise made on pages in front of it. An anonymous map whose size wraps round the word is one view of the wrapped size: less than a page under a map of the full length asked for, or one allocation unit with a minimal length.", "quantifier": "every target and build, every interleaving of the program's threads with any calls in progress, every act of other processes, every map, offset, length, type and byte (Windows)", "why_tests_cant": "Faults and wrapped offsets at every page, length and protection cannot be enumerated, and faults kill the test process.", "anchors": ["src/map.rs: Map, MapMut (Deref, DerefMut, into_map_mut, lock_range, flush_range)", "src/lib.rs: Span, SpanMut, Operation", "src/os/windows.rs: map_file, protect"]}
{"id": "C103", "title": "Calls in progress on macOS: answers, bounds and isolation under every interleaving", "statement": "While any number of threads make maps and rings at the same time on macOS and iOS, and other processes change files, at any moment between the kernel calls of a call (vm_allocate of the whole, vm_allocate of the first half over it, mach_make_memory_entry, vm_map of the second half, vm_deallocate after a failure): the memory of every map, every ring and every call in progress is disjoint from all others and stays mapped; the bytes of a ring change by its own calls only; a ring whose allocation was interrupted at any of its kernel calls answers all later calls like a queue that was empty when it was made; a map is decided by the length that fstat found; a call is over after a bounded number of its own kernel calls; and the stages run without interruption are exactly the call the other properties are about.", "quantifier": "every interleaving of the stages of all calls that make maps and rings, of all other calls, and of acts of other processes; every kernel answer, including refusals at each stage (macOS, iOS)", "why_tests_cant": "A test cannot place another thread between two given kernel calls of one call.", "anchors": ["src/os/unix/mach.rs: map_ring", "src/os/unix/mod.rs: map_file", "src/map.rs: open_if, map_if", "src/io/ring.rs: Ring::new, InfiniteRing::new"]}
{"id": "C104", "title": "What calls in progress leave behind on macOS: no memory, no descriptor, every memory entry", "statement": "At any moment of any interleaving on macOS and iOS, every mapped page was mapped at the start, or belongs to exactly one map, ring or ring being made, or is one the kernel was asked to release and refused; every open descriptor is the program's or that of exactly one call in progress. So a ring allocation or a map that fails at any of its kernel calls, with any other calls between them, keeps no memory and no file. The memory entry of a ring is the exception: it is made by one kernel call of the allocation and by nothing else, and is never released, neither when the allocation fails after it nor when the ring is dropped.", "quantifier": "every interleaving of the stages of all calls that make maps and rings, of all other calls, and of acts of other processes; every kernel answer, including refusals at each stage (macOS, iOS)", "why_tests_cant": "Leaks are invisible to assertions on results, and a test cannot make each kernel call fail at each moment of each interleaving.", "anchors": ["src/os/unix/mach.rs: map_ring, unmap_ring", "src/os/unix/mod.rs: map_file, unmap", "src/map.rs: open_if, map_if, Drop for MapMut", "src/io/ring.rs: Ring::new, Drop"]}
{"id": "C105", "title": "No memory becomes executable unasked, and none writable and executable at once", "statement": "In every program and under every interleaving, on every platform: a page of the process that can be both written and executed was so before the program started - no map, ring, conversion, flush, lock, advice or drop, finished or stopped half-way, makes one. If no map is asked for with Protect::ReadExec (which no method of Options sets), a page that can be executed at any later moment could be executed from the start; in particular rings and converted maps are never executable. A map made with a protection has exactly its permission to write and to execute on all its pages (on Windows: of its view), and a converted map can be read and written, not executed, on exactly its own pages.", "quantifier": "every history of calls of any number of threads, in any interleaving of their system calls, with acts of other processes; every kernel answer; every starting state (Linux, Android, BSD, macOS, iOS, Windows)", "why_tests_cant": "No test looks at the execute permission of pages, least of all of all pages of the process after each system call of each interleaving.", "anchors": ["src/os/unix/mod.rs: map_file, map_anon, protect", "src/os/unix/posix/mod.rs: map_ring", "src/os/unix/mach.rs: map_ring", "src/os/windows.rs: map_file, map_anon, map_ring, protect", "src/map.rs: into_map, into_map_mut, Options"]}
{"id": "C106", "title": "The os module called directly on POSIX: the page table is what the answers say", "statement": "The functions of the module os are public under the feature os and take any address and length. After any sequence of calls of map_file, map_anon, unmap, protect, flush, advise, lock and unlock with any arguments, and stores in between, each page is mapped exactly if the last successful call that touched it mapped it, and it is writable, executable, shared and locked exactly as the last successful calls that touched it asked: no call reaches beyond the pages that hold a byte of its range, and none stops short of them. A failing call changes nothing and its error names the operation and carries the system's code; no call panics. A mapped file shows the file's bytes from the offset on, anonymous memory is zeros and shared with nothing, unmapping restores the address space, Sync leaves the shared bytes of the range in storage and writes nothing else, WillNotNeed discards exactly the private copies of the range, the other calls change no byte. Every call succeeds exactly when its arguments allow it and the system does not refuse for its own reasons; for protect: the address is aligned, every page is mapped and none would become writable against its file. protect with ReadCopy does not stop sharing: writes still reach the file (a refuted claim).", "quantifier": "every sequence of calls of any length with any arguments; every kernel answer; every starting state (Linux, Android, BSD, macOS, iOS)", "why_tests_cant": "Tests use few ranges, aligned and mapped; they cannot look at the permissions of all other pages, nor make the kernel refuse.", "anchors": ["src/os/unix/mod.rs: map_file, map_anon, unmap, protect, flush, advise, lock, unlock", "src/lib.rs: pub mod os, Protect"]}
{"id": "C107", "title": "The os module called directly on Windows: pages and views are what the answers say", "statement": "After any sequence of direct calls of os::map_file, map_anon, unmap, protect, flush, advise, lock and unlock on Windows, with any addresses (aligned or not) and lengths, and stores in between, each page is mapped exactly if the last successful call that touched it mapped it, in the view starting at the address that call gave, and it is writable, executable, shared and locked exactly as the last successful calls that touched it asked; protect, lock and unlock reach exactly the pages holding a byte of the range. unmap removes exactly the whole view that starts at its address, whatever the length it is given (so unmapping part of a view removes all of it: a refuted claim), and answers the wrong way round (C33). A failing call other than unmap changes nothing mapped; errors name the operation and carry the system's code; no call keeps a handle or panics. For each function the arguments for which it succeeds, unless the system refuses on its own, are stated exactly (alignment to the allocation granularity, the file's length and access, free address space, mapped, writable or locked pages).", "quantifier": "every sequence of calls of any length with any arguments (files mapped with a length of at least one); every kernel answer; pages taken by other threads at any call; every starting state (Windows)", "why_tests_cant": "Tests use few ranges; they cannot look at all other pages, make the system refuse, or see handles.", "anchors": ["src/os/windows.rs: map_file, map_anon, unmap, protect, flush, advise, lock, unlock, MapHandle", "src/lib.rs: pub mod os, Protect"]}
{"id": "C108", "title": "The inner object replaced: nothing buffered is lost, and nothing goes elsewhere than to the next object", "statement": "get_mut, DerefMut and AsMut give the inner object of a BufReader or BufWriter as &mut, so that a program can replace it by another one (mem::replace) while bytes are buffered. Whatever replacements are made, between any calls on the wrapper and any direct calls: of each source, consecutive pieces are taken from its start, one by each call made while it was there, and the source handed back has exactly the rest; direct reads deliver their pieces; and the pieces taken by the calls on the buffer, from all sources in turn, come out of the buffer in exactly this order, without loss or repetition, followed by what is still buffered. Likewise each sink has received exactly consecutive pieces; direct writes deliver exactly what they report; and all that the calls on the buffer gave to all sinks in turn, followed by what is still buffered, is what these calls reported to have written - in order, but for the exact-fit reordering of C47. So bytes buffered while one object was there are delivered from or to the next. No call faults.", "quantifier": "every number of inner objects with any contents and any honest answers; every history of calls between the replacements; every capacity; every number of bytes (64-bit: below 2^64)", "why_tests_cant": "Tests keep one inner object; the combinations of replacement moments, buffer states and short reads or writes are unbounded.", "anchors": ["src/io/buffer.rs: BufReader::get_mut, BufWriter::get_mut, DerefMut, AsMut, fill_buf, consume, read, write, flush_buf"]}
{"id": "C109", "title": "The os module called directly on POSIX, with rings: the page table, and the mirror for ever", "statement": "After any sequence of direct calls of os::map_ring and os::unmap_ring with any addresses and lengths, of the other functions of C106, and stores in between, each page is what the answers say: a successful map_ring makes exactly the pages of twice its length, all free before, readable, writable, shared, not executable and not locked; a successful unmap_ring frees exactly the pages with a byte of twice its length (modulo the word in builds without overflow checks), whatever was mapped there; a failing map_ring changes no page that was mapped, and leaves pages behind only if it failed at one of the halves. The two halves of a ring show the same bytes, and can be read, after any sequence of calls that unmaps none of its pages - also if single pages are protected, locked, advised or flushed, and other memory is mapped and unmapped.", "quantifier": "every sequence of calls of any length with any arguments; every kernel answer; every reading of the clock; every well-formed starting state (Linux, Android, BSD)", "why_tests_cant": "Tests use few ranges and one ring; they cannot look at all pages after each call, nor make the kernel refuse.", "anchors": ["src/os/unix/posix/mod.rs: map_ring, unmap_ring", "src/os/unix/posix/memfd.rs", "src/os/unix/mod.rs", "src/lib.rs: pub mod os"]}
{"id": "C110", "title": "The os module called directly on macOS, with rings: the page table, and the mirror for ever", "statement": "The counterpart of C109 on macOS and iOS. After any sequence of direct calls of os::map_ring (of whole pages), os::unmap_ring with any address and length, the other functions of C106, and stores in between, each page is what the answers say: a successful map_ring makes exactly the pages of twice its length, all free before, with the permissions of a ring; a successful unmap_ring frees exactly the pages with a byte of twice its length, also for an address that is not aligned, and none for no bytes; a failing map_ring changes no page that was mapped. The two halves of a ring show the same bytes, and can be read, after any sequence of calls that unmaps none of its pages.", "quantifier": "every sequence of calls of any length with any arguments (rings of whole pages; without overflow checks of less than half of the address space, C31); every kernel answer; every well-formed starting state (macOS, iOS)", "why_tests_cant": "Tests use few ranges and one ring; they cannot look at all pages after each call, nor make the kernel refuse.", "anchors": ["src/os/unix/mach.rs: map_ring, unmap_ring", "src/os/unix/mod.rs", "src/lib.rs: pub mod os"]}
{"id": "C111", "title": "The os module called directly on Windows, with rings: pages and views are what the answers say, and the mirror for ever", "statement": "The counterpart of C109 on Windows. After any sequence of direct calls of os::map_ring with any length, os::unmap_ring with any address and length, the other functions of C107, and stores in between, each page is what the answers say, unless a VirtualFree or UnmapViewOfFile failed while a ring was made (C32): a successful map_ring makes exactly two views of its length, one after the other, with the permissions of a ring; a failing or panicking map_ring changes no page and no view; a successful unmap_ring removes exactly the view that starts at its address plus its length, and the view that starts at its address exactly if the kernel accepted this, which the answer does not tell (that success means that the ring is gone is a refuted claim); a failing unmap_ring changes nothing; unless the system refuses, unmap_ring succeeds exactly if a view starts behind its length. Errors name a stage of the ring and carry the system's code, no handle is kept, and only map_ring panics, and only if twice the length overflows in a build with checks. The two halves of a ring show the same bytes, and can be read, after any sequence of calls that unmaps neither of its views, whatever the kernel refused before or since.", "quantifier": "every sequence of calls of any length with any arguments (files mapped with a length of at least one); every kernel answer; pages taken by other threads at any call; every starting state whose views are apart (Windows)", "why_tests_cant": "Tests use few ranges and one ring; they cannot look at all pages and views after each call, nor make the system refuse.", "anchors": ["src/os/windows.rs: map_ring, map_ring_handle, reserve, unmap_ring", "src/os/windows.rs", "src/lib.rs: pub mod os"]}
