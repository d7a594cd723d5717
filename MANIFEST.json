{
 "claims": [
  {
   "property": "C01",
   "status": "proved",
   "theorems": [
    "C01_round_exact"
   ],
   "note": "Exact result on every input, including the overflow edge."
  },
  {
   "property": "C02",
   "status": "proved",
   "theorems": [
    "C02_truncate_offset",
    "C02_default"
   ],
   "note": ""
  },
  {
   "property": "C03",
   "status": "proved",
   "theorems": [
    "C03_count_exact",
    "C03_size_exact",
    "C03_size_of_count",
    "C03_count_wide_refuted"
   ],
   "note": "Exact on every input; the refuted theorem exhibits the u32 truncation outside the stated range."
  },
  {
   "property": "C04",
   "status": "proved",
   "theorems": [
    "C04_bounds_exact",
    "C04_bounds_minimal"
   ],
   "note": ""
  },
  {
   "property": "C34",
   "status": "partial",
   "theorems": [
    "C34_ring_queue_partial",
    "C34_ring_64bit",
    "C34_ring_pow2",
    "C34_fifo_partial",
    "C34_ring_32bit_refuted",
    "C34_fifo_exact",
    "C80_ring_exact_iff"
   ],
   "note": "Refinement of a bounded queue over every history. Every history, of any length, is covered where the capacity divides the word or the target is 64-bit with overflow checks (the _exact theorems, which also say exactly when the checks panic); C80_ring_exact_iff and C80_infinite_exact_iff show that no other capacity qualifies. For the others (see C34_ring_32bit_refuted) the _partial theorems cover the histories whose position fits the word."
  },
  {
   "property": "C35",
   "status": "proved",
   "theorems": [
    "C35_accounting"
   ],
   "note": "Every history, every target; feed panics only when the position counter itself would pass 2^64 with overflow checks on."
  },
  {
   "property": "C36",
   "status": "partial",
   "theorems": [
    "C35_accounting",
    "C36_store_private_partial",
    "C36_store_32bit_refuted",
    "C36_store_private_exact"
   ],
   "note": "Bounds and lengths: every history. Privacy: Every history, of any length, is covered where the capacity divides the word or the target is 64-bit with overflow checks (the _exact theorems, which also say exactly when the checks panic); C80_ring_exact_iff and C80_infinite_exact_iff show that no other capacity qualifies. For the others (see C34_ring_32bit_refuted) the _partial theorems cover the histories whose position fits the word."
  },
  {
   "property": "C37",
   "status": "partial",
   "theorems": [
    "C37_write_all_partial",
    "C37_write_all_exact"
   ],
   "note": "Every history, of any length, is covered where the capacity divides the word or the target is 64-bit with overflow checks (the _exact theorems, which also say exactly when the checks panic); C80_ring_exact_iff and C80_infinite_exact_iff show that no other capacity qualifies. For the others (see C34_ring_32bit_refuted) the _partial theorems cover the histories whose position fits the word."
  },
  {
   "property": "C38",
   "status": "partial",
   "theorems": [
    "C38_clear_partial",
    "C38_clear_exact"
   ],
   "note": "Later histories without bare feed (which exposes stale bytes). Every history, of any length, is covered where the capacity divides the word or the target is 64-bit with overflow checks (the _exact theorems, which also say exactly when the checks panic); C80_ring_exact_iff and C80_infinite_exact_iff show that no other capacity qualifies. For the others (see C34_ring_32bit_refuted) the _partial theorems cover the histories whose position fits the word."
  },
  {
   "property": "C39",
   "status": "partial",
   "theorems": [
    "C39_read_until_partial",
    "C39_read_until_exact"
   ],
   "note": "Every history, of any length, is covered where the capacity divides the word or the target is 64-bit with overflow checks (the _exact theorems, which also say exactly when the checks panic); C80_ring_exact_iff and C80_infinite_exact_iff show that no other capacity qualifies. For the others (see C34_ring_32bit_refuted) the _partial theorems cover the histories whose position fits the word."
  },
  {
   "property": "C40",
   "status": "partial",
   "theorems": [
    "C40_bytes_partial",
    "C40_bytes_exact"
   ],
   "note": "Every history, of any length, is covered where the capacity divides the word or the target is 64-bit with overflow checks (the _exact theorems, which also say exactly when the checks panic); C80_ring_exact_iff and C80_infinite_exact_iff show that no other capacity qualifies. For the others (see C34_ring_32bit_refuted) the _partial theorems cover the histories whose position fits the word."
  },
  {
   "property": "C41",
   "status": "partial",
   "theorems": [
    "C41_most_recent_partial",
    "C41_lossy_queue_partial",
    "C41_most_recent_exact",
    "C80_infinite_exact_iff"
   ],
   "note": "Every history, of any length, is covered where the capacity divides the word or the target is 64-bit with overflow checks (the _exact theorems, which also say exactly when the checks panic); C80_ring_exact_iff and C80_infinite_exact_iff show that no other capacity qualifies. For the others (see C34_ring_32bit_refuted) the _partial theorems cover the histories whose position fits the word."
  },
  {
   "property": "C42",
   "status": "partial",
   "theorems": [
    "C42_oversized_partial",
    "C42_oversized_exact"
   ],
   "note": "Every history, of any length, is covered where the capacity divides the word or the target is 64-bit with overflow checks (the _exact theorems, which also say exactly when the checks panic); C80_ring_exact_iff and C80_infinite_exact_iff show that no other capacity qualifies. For the others (see C34_ring_32bit_refuted) the _partial theorems cover the histories whose position fits the word."
  },
  {
   "property": "C43",
   "status": "partial",
   "theorems": [
    "C43_feed_partial",
    "C43_feed_refuted",
    "C43_feed_exact"
   ],
   "note": "Exact for every count: fails exactly when readable + n overflows 64 bits."
  },
  {
   "property": "C44",
   "status": "partial",
   "theorems": [
    "C44_stream_partial",
    "C44_stream_64bit"
   ],
   "note": "Every source behaviour and call history. Covered: histories whose stream position fits the word (every history of fewer than 2^64 bytes on 64-bit, of fewer than 2^32 on 32-bit), and any history without overflow checks where the capacity divides the word; the rest is false (C34_ring_32bit_refuted; C84 gives the exact conditions for histories of any length)."
  },
  {
   "property": "C45",
   "status": "proved",
   "theorems": [
    "C45_low_water",
    "C45_mark",
    "C45_bypass"
   ],
   "note": "No restriction on history length or source behaviour."
  },
  {
   "property": "C46",
   "status": "proved",
   "theorems": [
    "C46_end_of_input"
   ],
   "note": "No restriction on history length or source behaviour."
  },
  {
   "property": "C47",
   "status": "partial",
   "theorems": [
    "C47_conservation_partial",
    "C47_conservation_64bit"
   ],
   "note": "Multiset equality at every point of every history. Covered: histories whose stream position fits the word (every history of fewer than 2^64 bytes on 64-bit, of fewer than 2^32 on 32-bit), and any history without overflow checks where the capacity divides the word; the rest is false (C34_ring_32bit_refuted; C84 gives the exact conditions for histories of any length)."
  },
  {
   "property": "C48",
   "status": "partial",
   "theorems": [
    "C48_order_partial",
    "C48_exact_fit_overtakes",
    "C48_order_refuted"
   ],
   "note": "False as stated: a write that exactly fills the free space of a non-empty buffer is sent before the buffered bytes. Proved: it happens in every such case, and order holds in all other histories. Covered: histories whose stream position fits the word (every history of fewer than 2^64 bytes on 64-bit, of fewer than 2^32 on 32-bit), and any history without overflow checks where the capacity divides the word; the rest is false (C34_ring_32bit_refuted; C84 gives the exact conditions for histories of any length)."
  },
  {
   "property": "C49",
   "status": "partial",
   "theorems": [
    "C49_flush_partial"
   ],
   "note": "Covered: histories whose stream position fits the word (every history of fewer than 2^64 bytes on 64-bit, of fewer than 2^32 on 32-bit), and any history without overflow checks where the capacity divides the word; the rest is false (C34_ring_32bit_refuted; C84 gives the exact conditions for histories of any length)."
  },
  {
   "property": "C50",
   "status": "partial",
   "theorems": [
    "C50_into_inner_partial"
   ],
   "note": "Covered: histories whose stream position fits the word (every history of fewer than 2^64 bytes on 64-bit, of fewer than 2^32 on 32-bit), and any history without overflow checks where the capacity divides the word; the rest is false (C34_ring_32bit_refuted; C84 gives the exact conditions for histories of any length)."
  },
  {
   "property": "C51",
   "status": "proved",
   "theorems": [
    "C51_into_parts"
   ],
   "note": "Every history of the ring and of the writer, every inner writer, also one that breaks its contract."
  },
  {
   "property": "C52",
   "status": "partial",
   "theorems": [
    "C52_drop_partial"
   ],
   "note": "Covered: histories whose stream position fits the word (every history of fewer than 2^64 bytes on 64-bit, of fewer than 2^32 on 32-bit), and any history without overflow checks where the capacity divides the word; the rest is false (C34_ring_32bit_refuted; C84 gives the exact conditions for histories of any length)."
  },
  {
   "property": "C59",
   "status": "proved",
   "theorems": [
    "C59_reader_safe",
    "C59_writer_safe",
    "C59_writer_parts_safe"
   ],
   "note": ""
  },
  {
   "property": "C60",
   "status": "partial",
   "theorems": [
    "C60_read_until_partial",
    "C60_read_exact_partial"
   ],
   "note": "Covered: histories whose stream position fits the word (every history of fewer than 2^64 bytes on 64-bit, of fewer than 2^32 on 32-bit), and any history without overflow checks where the capacity divides the word; the rest is false (C34_ring_32bit_refuted; C84 gives the exact conditions for histories of any length)."
  },
  {
   "property": "C53",
   "status": "proved",
   "theorems": [
    "C53_errors_keep_cause",
    "C53_round_trip"
   ],
   "note": "Behaviour of std::io::Error and system_error::Error is assumed as described in ErrorModel.v."
  },
  {
   "property": "C54",
   "status": "proved",
   "theorems": [
    "C54_message",
    "C54_message_identifies_operation"
   ],
   "note": "For whatever texts std and system_error print."
  },
  {
   "property": "C05",
   "status": "proved",
   "theorems": [
    "C05_cache_race_free"
   ],
   "note": "Any number of threads and any interleaving; loads may return any value C11 coherence allows."
  },
  {
   "property": "C06",
   "status": "partial",
   "theorems": [
    "C06_extent",
    "C06_extent_fits",
    "C06_decided",
    "C06_wide_file_refuted"
   ],
   "note": "Complete when the file length fits the word (always on 64 bits). On 32 bits the length is truncated (refuted). An empty rest at a page-aligned offset is an OS error (EINVAL), neither None nor a map."
  },
  {
   "property": "C07",
   "status": "proved",
   "theorems": [
    "C07_shows_file"
   ],
   "note": ""
  },
  {
   "property": "C08",
   "status": "proved",
   "theorems": [
    "C08_map_agrees",
    "C08_open_agrees"
   ],
   "note": ""
  },
  {
   "property": "C09",
   "status": "proved",
   "theorems": [
    "C09_file_length",
    "C09_other_files"
   ],
   "note": "For file lengths that fit the word (always on 64 bits)."
  },
  {
   "property": "C10",
   "status": "proved",
   "theorems": [
    "C10_write_through",
    "C10_seen_by_sharers"
   ],
   "note": "POSIX targets (allocation granularity = page size), any history of calls, any kernel answers. "
  },
  {
   "property": "C11",
   "status": "proved",
   "theorems": [
    "C11_copy_private",
    "C11_copy_history"
   ],
   "note": "POSIX targets (allocation granularity = page size), any history of calls, any kernel answers. "
  },
  {
   "property": "C12",
   "status": "proved",
   "theorems": [
    "C12_into_map_mut",
    "C12_same_map"
   ],
   "note": "POSIX targets (allocation granularity = page size), any history of calls, any kernel answers. "
  },
  {
   "property": "C13",
   "status": "partial",
   "theorems": [
    "C13_into_map_partial",
    "C13_read_only_refuted",
    "C13_same_map"
   ],
   "note": "Address, length and content are kept, but the pages are left writable in every case: into_map protects with ReadWrite (map.rs:291)."
  },
  {
   "property": "C14",
   "status": "partial",
   "theorems": [
    "C14_drop_partial",
    "C14_map_drop_partial",
    "C14_alloc_drop_partial",
    "C14_empty_map_leaks",
    "C14_empty_map_refuted"
   ],
   "note": "Proved for every map of non-zero length. A zero-length map at an unaligned offset leaks its page."
  },
  {
   "property": "C15",
   "status": "partial",
   "theorems": [
    "C15_disjoint_partial",
    "C15_others_partial",
    "C15_call_ok_checked"
   ],
   "note": "Any history. Without overflow checks, calls whose off + len wraps are excluded (see C16_wrap_refuted)."
  },
  {
   "property": "C16",
   "status": "partial",
   "theorems": [
    "C16_range_checked_partial",
    "C16_wrap_refuted"
   ],
   "note": "Exact when off + len fits or overflow checks are on (then a panic). In release builds a wrapping off + len is accepted and works on other maps (refuted)."
  },
  {
   "property": "C17",
   "status": "proved",
   "theorems": [
    "C17_range_pages",
    "C17_whole_pages"
   ],
   "note": "POSIX targets (allocation granularity = page size), any history of calls, any kernel answers. "
  },
  {
   "property": "C18",
   "status": "proved",
   "theorems": [
    "C18_durable",
    "C18_durable_uncut"
   ],
   "note": "Any later history, with kernel write-backs at any time. A byte cut off by a later truncation and grown again reads 0."
  },
  {
   "property": "C19",
   "status": "partial",
   "theorems": [
    "C19_advise_hint_partial",
    "C19_will_not_need_refuted"
   ],
   "note": "False for WillNotNeed on a copy map (stores are discarded); proved in all other cases."
  },
  {
   "property": "C20",
   "status": "proved",
   "theorems": [
    "C20_lock"
   ],
   "note": "POSIX targets (allocation granularity = page size), any history of calls, any kernel answers. "
  },
  {
   "property": "C21",
   "status": "proved",
   "theorems": [
    "C21_open",
    "C21_open_if",
    "C21_map",
    "C21_close"
   ],
   "note": "POSIX targets (allocation granularity = page size), any history of calls, any kernel answers. "
  },
  {
   "property": "C22",
   "status": "partial",
   "theorems": [
    "C22_alloc_partial",
    "C22_new",
    "C22_wrap_refuted"
   ],
   "note": "MapMut::new: complete. Options::alloc: in release builds sizes close to 2^64 wrap (refuted; C89_alloc says what such a map is)."
  },
  {
   "property": "C23",
   "status": "partial",
   "theorems": [
    "C23_alloc_partial",
    "C23_readonly_refuted"
   ],
   "note": "Read-only anonymous maps always fail with EBADF (MAP_ANON is missing)."
  },
  {
   "property": "C26",
   "status": "partial",
   "theorems": [
    "C26_readable_partial",
    "C26_truncate_refuted"
   ],
   "note": "Any history in which no call asks for a file to be shortened; shortening a mapped file faults (refuted)."
  },
  {
   "property": "C55",
   "status": "proved",
   "theorems": [
    "C55_build",
    "C55_independent",
    "C55_last_wins",
    "C55_needs_write",
    "C55_access_matches"
   ],
   "note": ""
  },
  {
   "property": "C57",
   "status": "partial",
   "theorems": [
    "C57_store_partial",
    "C57_builder",
    "C57_default_refuted"
   ],
   "note": "Any history without shortened files in which MapMut builders start from MapMut::with_options; Options::<MapMut>::default() is read-only and stores fault (refuted)."
  },
  {
   "property": "C58",
   "status": "proved",
   "theorems": [
    "C58_api_errors",
    "C28_stage",
    "C30_failure",
    "C56_error"
   ],
   "note": "Every call of the mapping API in every state, every stage of ring allocation."
  },
  {
   "property": "C24",
   "status": "partial",
   "theorems": [
    "C24_outside_partial",
    "C24_slice_partial",
    "C24_map_partial",
    "C24_empty",
    "C24_map_empty",
    "C24_hole_refuted",
    "C24_wrap_refuted"
   ],
   "note": "Exact when overflow checks are on or offset+size stays below the word size. In release builds assert_capacity (lib.rs:600) wraps for offsets in the last size_of::<T>() bytes of the address space: the access goes through (C24_hole_refuted for every span and type, C24_wrap_refuted writes into another map)."
  },
  {
   "property": "C25",
   "status": "proved",
   "theorems": [
    "C25_slice_write",
    "C25_volatile",
    "C25_read",
    "C25_representation",
    "C25_map_write"
   ],
   "note": "Slices and live maps, all scalar types, both byte orders, any alignment table. Floats are their bit patterns."
  },
  {
   "property": "C27",
   "status": "proved",
   "theorems": [
    "C27_mirrored",
    "C27_elsewhere",
    "C27_ring_memory"
   ],
   "note": "Over the page-table model of the kernel, every length (others than page multiples fail), every address, both kinds of memory files; C27_ring_memory links it to the memory the ring model computes with."
  },
  {
   "property": "C28",
   "status": "proved",
   "theorems": [
    "C28_success",
    "C28_failure",
    "C28_stage"
   ],
   "note": "The cleanup munmap (and shm_unlink) results are ignored by the code: if the kernel refuses those too, the reservation (or the name) stays, and the theorem says so."
  },
  {
   "property": "C29",
   "status": "proved",
   "theorems": [
    "C29_create_drop"
   ],
   "note": "If the kernel refuses the munmap of the drop, the ring stays mapped and nothing is reported; the theorem says so."
  },
  {
   "property": "C30",
   "status": "proved",
   "theorems": [
    "C30_capacity",
    "C30_failure"
   ],
   "note": ""
  },
  {
   "property": "C56",
   "status": "partial",
   "theorems": [
    "C56_name_partial",
    "C56_epoch_refuted",
    "C56_retry",
    "C56_error"
   ],
   "note": "A system clock before 1970 panics (unwrap of duration_since); proved for every later clock."
  },
  {
   "property": "C31",
   "status": "partial",
   "theorems": [
    "C31_success_partial",
    "C31_failure_partial",
    "C31_stage_partial",
    "C31_create_drop_partial",
    "C31_ports_refuted",
    "C31_huge_partial",
    "C31_huge_refuted",
    "C31_unaligned_refuted"
   ],
   "note": "The failing stage is named, the address space is restored and success adds exactly 2N mirrored addresses, for every multiple of the page size below half the address space. False in the code: the port of the memory entry is never deallocated (every ring leaks one, also when the last call fails); without overflow checks 2 * len wraps for lengths of half the address space; for lengths that are no multiple of the page size a neighbouring page can be overwritten."
  },
  {
   "property": "C32",
   "status": "proved",
   "theorems": [
    "C32_allocation",
    "C32_retry"
   ],
   "note": "Every length, kernel and interference of other threads. The results of VirtualFree and of the UnmapViewOfFile of a lost attempt are ignored by the code: if the kernel refuses one of them its pages stay, and the theorem says so."
  },
  {
   "property": "C33",
   "status": "partial",
   "theorems": [
    "C33_inverted",
    "C33_unmap_refuted"
   ],
   "note": "False of the code: the comparison at windows.rs:192 is inverted. C33_inverted states what os::unmap returns for every outcome: Err exactly when the view was unmapped."
  },
  {
   "property": "C61",
   "status": "proved",
   "theorems": [
    "C61_map_file",
    "C61_map_anon"
   ],
   "note": "A length of 0 maps the rest of the file (Win32 semantics), as stated."
  },
  {
   "property": "C62",
   "status": "proved",
   "theorems": [
    "C62_flush"
   ],
   "note": "FlushFileBuffers needs a descriptor with write access; the theorem shows it."
  },
  {
   "property": "C63",
   "status": "proved",
   "theorems": [
    "C63_unmap_ring",
    "C63_create_drop"
   ],
   "note": "The result of the second UnmapViewOfFile is ignored (windows.rs:215): if the kernel refuses it the first view stays mapped and Ok is returned; the theorem says so."
  },
  {
   "property": "C64",
   "status": "proved",
   "theorems": [
    "C64_protect",
    "C64_lock"
   ],
   "note": "ReadCopy is applied as PAGE_READWRITE."
  },
  {
   "property": "C65",
   "status": "proved",
   "theorems": [
    "C65_extent",
    "C65_file",
    "C65_space",
    "C65_shows",
    "C65_alloc"
   ],
   "note": "alloc: for sizes that fit the word, or with overflow checks; without them sizes wrap as on the other systems (C22)."
  },
  {
   "property": "C66",
   "status": "partial",
   "theorems": [
    "C66_drop_partial",
    "C66_empty_refuted"
   ],
   "note": "Proved for maps of at least one byte. False for maps of no bytes, which have a view that is never unmapped."
  },
  {
   "property": "C67",
   "status": "proved",
   "theorems": [
    "C67_readable",
    "C67_isolation",
    "C67_store",
    "C67_file"
   ],
   "note": ""
  },
  {
   "property": "C68",
   "status": "partial",
   "theorems": [
    "C68_exact_partial",
    "C68_all_dropped_partial"
   ],
   "note": "Proved for histories in which no map of no bytes is dropped (C66_empty_refuted shows that this is needed)."
  },
  {
   "property": "C69",
   "status": "partial",
   "theorems": [
    "C69_into_map_mut",
    "C69_writable_file_refuted",
    "C69_same_map"
   ],
   "note": "False in the code: the section and view are created with the protection of the Options, so VirtualProtect refuses more. C69_into_map_mut gives the exact condition."
  },
  {
   "property": "C70",
   "status": "proved",
   "theorems": [
    "C70_flush",
    "C70_flush_range"
   ],
   "note": "The caller passes the file; the theorem is about calls that pass a descriptor of the mapped file."
  },
  {
   "property": "C71",
   "status": "partial",
   "theorems": [
    "C71_range_checked_partial",
    "C71_wrap_refuted",
    "C71_lock",
    "C71_advise"
   ],
   "note": "The range check is exact when off + len fits or overflow checks are on; in release builds a wrapping off + len works on other maps (refuted)."
  },
  {
   "property": "C72",
   "status": "proved",
   "theorems": [
    "C72_map_agrees",
    "C72_open_agrees",
    "C72_open",
    "C72_open_if",
    "C72_map",
    "C72_new"
   ],
   "note": "C72_new is in PropertiesWinDecided.v: a hint whose size wraps never succeeds."
  },
  {
   "property": "C73",
   "status": "proved",
   "theorems": [
    "C73_errors"
   ],
   "note": ""
  },
  {
   "property": "C74",
   "status": "partial",
   "theorems": [
    "C74_ring_partial",
    "C74_ring_64bit",
    "C74_infinite_partial",
    "C74_ring_exact_iff",
    "C74_infinite_exact_iff"
   ],
   "note": "Induction over programs; the ring code runs on the kernel memory of OsModel.v. Histories of any length: the _exact_iff theorems say exactly for which capacities (rounded-up hints) the ring is a queue for ever, and that for all others some program (or interleaving) sees wrong bytes. The _partial theorems cover the histories of the latter whose stream position fits the word."
  },
  {
   "property": "C75",
   "status": "partial",
   "theorems": [
    "C75_apart_partial",
    "C75_local_partial",
    "C75_files_partial",
    "C75_no_fault_partial",
    "C75_ring_kept_partial"
   ],
   "note": "With overflow checks on: every program. Without them the ranges and sizes passed to map calls must not wrap (C16_wrap_refuted; C22)."
  },
  {
   "property": "C76",
   "status": "partial",
   "theorems": [
    "C76_mapped_partial",
    "C76_all_dropped_partial",
    "C76_refused_leaks"
   ],
   "note": "Not for drops of maps of length 0 (C14_empty_map_leaks) or when the kernel refuses munmap (C76_refused_leaks)."
  },
  {
   "property": "C77",
   "status": "partial",
   "theorems": [
    "C77_ring_partial",
    "C77_ring_64bit",
    "C77_infinite_partial",
    "C77_ring_exact_iff",
    "C77_infinite_exact_iff"
   ],
   "note": "Induction over programs; the ring code runs on the kernel memory of WinModel.v. Histories of any length: the _exact_iff theorems say exactly for which capacities (rounded-up hints) the ring is a queue for ever, and that for all others some program (or interleaving) sees wrong bytes. The _partial theorems cover the histories of the latter whose stream position fits the word."
  },
  {
   "property": "C78",
   "status": "proved",
   "theorems": [
    "C78_histories",
    "C78_isolation",
    "C78_ring_kept",
    "C78_no_fault",
    "C78_local"
   ],
   "note": "Every call on a ring is shown to be a list of stores through it."
  },
  {
   "property": "C79",
   "status": "partial",
   "theorems": [
    "C79_exact_partial",
    "C79_all_dropped_partial"
   ],
   "note": "Not for drops of maps of no bytes (C66_empty_refuted), which the claim excludes too, nor when the kernel refuses a release."
  },
  {
   "property": "C80",
   "status": "proved",
   "theorems": [
    "C80_ring_exact_iff",
    "C80_infinite_exact_iff"
   ],
   "note": "Both directions: sufficiency by induction over histories of any length, necessity by a history built for every capacity that does not qualify."
  },
  {
   "property": "C81",
   "status": "partial",
   "theorems": [
    "C81_ring_partial",
    "C81_ring_64bit",
    "C81_infinite_partial",
    "C81_ring_exact_iff",
    "C81_infinite_exact_iff"
   ],
   "note": "Induction over programs; rings are allocated by MachModel.v in the memory of OsModel.v. Histories of any length: the _exact_iff theorems say exactly for which capacities (rounded-up hints) the ring is a queue for ever, and that for all others some program (or interleaving) sees wrong bytes. The _partial theorems cover the histories of the latter whose stream position fits the word."
  },
  {
   "property": "C82",
   "status": "partial",
   "theorems": [
    "C82_apart_partial",
    "C82_local_partial",
    "C82_files_partial",
    "C82_no_fault_partial",
    "C82_ring_kept_partial"
   ],
   "note": "With overflow checks on: every program. Without them sizes and ranges must not wrap (C16_wrap_refuted, C22, C31_huge_refuted)."
  },
  {
   "property": "C83",
   "status": "partial",
   "theorems": [
    "C83_mapped_partial",
    "C83_all_dropped_partial",
    "C83_ports",
    "C83_refused_leaks"
   ],
   "note": "Pages: not for drops of maps of length 0 (C14_empty_map_leaks) or when the kernel refuses to deallocate (C83_refused_leaks). Ports: every program."
  },
  {
   "property": "C84",
   "status": "proved",
   "theorems": [
    "C84_reader_iff",
    "C84_conservation_iff",
    "C84_order_iff",
    "C84_flush_iff",
    "C84_into_inner_iff",
    "C84_drop_iff"
   ],
   "note": "Both directions; necessity by a history of 2^bits - 1 one-byte turns followed by two bytes across the wrap."
  },
  {
   "property": "C85",
   "status": "proved",
   "theorems": [
    "C85_ledger",
    "C85_attempt",
    "C85_mach_ledger",
    "C85_mach_attempt",
    "C85_win_ledger",
    "C85_win_kept",
    "C85_win_left",
    "C85_win_attempt"
   ],
   "note": "Kernel answers, sizes of maps and the order of calls are arbitrary; sizes for which alloc or map_ring wrap are excluded in the calls (C22, C31)."
  },
  {
   "property": "C86",
   "status": "proved",
   "theorems": [
    "C86_reader_of_writer",
    "C86_writer_of_reader",
    "C86_unbuffered_writes",
    "C86_unbuffered_reads",
    "C86_streams",
    "C86_drop"
   ],
   "note": "The generic wrappers of DuplexModel.v are shown equal to the reader and writer of BufModel.v on the part of the object they use."
  },
  {
   "property": "C87",
   "status": "proved",
   "theorems": [
    "C87_lines",
    "C87_frames",
    "C87_exact_fit_refuted"
   ],
   "note": "Two peers of either shape; the exact-fit condition of the statement is needed (C87_exact_fit_refuted)."
  },
  {
   "property": "C88",
   "status": "partial",
   "theorems": [
    "C88_kept",
    "C88_written",
    "C88_elsewhere",
    "C88_cut",
    "C88_copy_kept",
    "C88_anonymous_partial",
    "C88_ring_partial",
    "C88_named_memory_refuted"
   ],
   "note": "Acts happen between calls (inside one: C91, C92). C88_anonymous_partial and C88_ring_partial: no wrapping offsets or sizes (call_ok), and nobody uses a name that shm_unlink failed to remove (named_ok, C88_named_memory_refuted)."
  },
  {
   "property": "C89",
   "status": "proved",
   "theorems": [
    "C89_load",
    "C89_store",
    "C89_read",
    "C89_write",
    "C89_slice",
    "C89_range",
    "C89_alloc"
   ],
   "note": "Complements the partial claims C16, C22, C24, C26 and C57 with what happens in the cases they exclude. C89_range: for wrapped ranges that begin at or behind the second page of the address space."
  },
  {
   "property": "C90",
   "status": "proved",
   "theorems": [
    "C90_ring_read",
    "C90_infinite_read",
    "C90_ring_write",
    "C90_infinite_write",
    "C90_ring_programs",
    "C90_infinite_programs"
   ],
   "note": "The methods of std and bytes are assumed (StdModel.v); proved once for any object that shows its bytes, then for both rings. Writing: with room in the stream position for the bytes (C34, C80)."
  },
  {
   "property": "C91",
   "status": "proved",
   "theorems": [
    "C91_uninterrupted",
    "C91_decided",
    "C91_readable_refuted",
    "C91_min_refuted",
    "C91_max_refuted",
    "C91_ends"
   ],
   "note": "The _refuted theorems are the negative sentences of the statement (fatal loads behind a cut; Min shortening, Max lengthening), each with a witness."
  },
  {
   "property": "C92",
   "status": "partial",
   "theorems": [
    "C92_apart",
    "C92_mapped",
    "C92_ring_kept",
    "C92_ring_partial",
    "C92_ring_64bit",
    "C92_infinite_partial",
    "C92_ring_exact_iff",
    "C92_infinite_exact_iff"
   ],
   "note": "apart, mapped and ring_kept: every interleaving. The ring answers: Histories of any length: the _exact_iff theorems say exactly for which capacities (rounded-up hints) the ring is a queue for ever, and that for all others some program (or interleaving) sees wrong bytes. The _partial theorems cover the histories of the latter whose stream position fits the word."
  },
  {
   "property": "C93",
   "status": "proved",
   "theorems": [
    "C93_pages",
    "C93_files",
    "C93_quiet"
   ],
   "note": "The pages left behind are defined in ThreadLedgerSpec.v (and, for calls made as one step, as in C85)."
  },
  {
   "property": "C94",
   "status": "partial",
   "theorems": [
    "C94_reader_partial",
    "C94_reader_64bit",
    "C94_writer_partial",
    "C94_writer_64bit"
   ],
   "note": "Covered: histories whose stream position fits the word (every history of fewer than 2^64 bytes on 64-bit, of fewer than 2^32 on 32-bit), and any history without overflow checks where the capacity divides the word; the rest is false (C34_ring_32bit_refuted; C84 gives the exact conditions for histories of any length)."
  },
  {
   "property": "C95",
   "status": "partial",
   "theorems": [
    "C95_reader_partial",
    "C95_writer_partial",
    "C95_reader_64bit",
    "C95_writer_64bit",
    "C95_reader_mach_partial",
    "C95_writer_mach_partial",
    "C95_reader_win_partial",
    "C95_writer_win_partial"
   ],
   "note": "Covered: histories whose stream position fits the word (every history of fewer than 2^64 bytes on 64-bit, of fewer than 2^32 on 32-bit), and any history without overflow checks where the capacity divides the word; the rest is false (C34_ring_32bit_refuted; C84 gives the exact conditions for histories of any length)."
  },
  {
   "property": "C96",
   "status": "partial",
   "theorems": [
    "C96_read_to_end_partial",
    "C96_read_to_string_partial",
    "C96_read_line_partial",
    "C96_split_partial",
    "C96_lines_partial",
    "C96_write_fmt_partial",
    "C96_copy_partial",
    "C96_copied_partial"
   ],
   "note": "std is assumed (BufStdModel.v). split and lines: the inner reader reports its end only at its end (steady). Order in copy: but for writes that fill the buffer exactly (C48). Covered: histories whose stream position fits the word (every history of fewer than 2^64 bytes on 64-bit, of fewer than 2^32 on 32-bit), and any history without overflow checks where the capacity divides the word; the rest is false (C34_ring_32bit_refuted; C84 gives the exact conditions for histories of any length)."
  },
  {
   "property": "C97",
   "status": "proved",
   "theorems": [
    "C97_uninterrupted",
    "C97_decided",
    "C97_object",
    "C97_alloc",
    "C97_ends",
    "C97_placed_refuted"
   ],
   "note": "C97_placed_refuted is the negative sentence of the statement (a ring that loses all six places), with a witness."
  },
  {
   "property": "C98",
   "status": "partial",
   "theorems": [
    "C98_apart",
    "C98_mapped",
    "C98_kept",
    "C98_handles",
    "C98_handles_closed",
    "C98_ring_partial",
    "C98_ring_64bit",
    "C98_infinite_partial",
    "C98_ring_exact_iff",
    "C98_infinite_exact_iff"
   ],
   "note": "apart, mapped, kept and handles: every interleaving. The ring answers: Histories of any length: the _exact_iff theorems say exactly for which capacities (rounded-up hints) the ring is a queue for ever, and that for all others some program (or interleaving) sees wrong bytes. The _partial theorems cover the histories of the latter whose stream position fits the word."
  },
  {
   "property": "C99",
   "status": "proved",
   "theorems": [
    "C99_tiled",
    "C99_left",
    "C99_kept",
    "C99_tidy",
    "C99_quiet",
    "C99_files",
    "C99_files_quiet"
   ],
   "note": "Every interleaving. C99_tidy says \"not: nobody answers for it\", as ownership is not decided in the logic; C99_quiet has the plain form."
  },
  {
   "property": "C100",
   "status": "proved",
   "theorems": [
    "C100_reader",
    "C100_writer",
    "C100_reader_mach",
    "C100_writer_mach",
    "C100_reader_win",
    "C100_writer_win"
   ],
   "note": "No bound on positions and nothing assumed of the inner object but that reported counts are values of usize. What the object alone guarantees then is C59."
  },
  {
   "property": "C101",
   "status": "proved",
   "theorems": [
    "C101_kept",
    "C101_written",
    "C101_elsewhere",
    "C101_private",
    "C101_cut",
    "C101_copy_kept"
   ],
   "note": "Every interleaving of the threads, with calls in progress. Windows refuses to shorten a mapped file; the model lets others do it all the same."
  },
  {
   "property": "C102",
   "status": "proved",
   "theorems": [
    "C102_load",
    "C102_store",
    "C102_read",
    "C102_write",
    "C102_range",
    "C102_alloc"
   ],
   "note": "The counterpart of C89 on Windows, over every interleaving. C102_range: for wrapped ranges that begin at or behind the second page of the address space (those that fit: C71). C102_alloc: anonymous maps whose size wraps (those that fit: C65)."
  },
  {
   "property": "C103",
   "status": "partial",
   "theorems": [
    "C103_uninterrupted",
    "C103_ends",
    "C103_apart",
    "C103_mapped",
    "C103_ring_kept",
    "C103_ring_partial",
    "C103_ring_64bit",
    "C103_infinite_partial",
    "C103_ring_exact_iff",
    "C103_infinite_exact_iff",
    "C103_decided"
   ],
   "note": "The counterpart of C91 and C92 on macOS. Without overflow checks, rings above half of the address space are excluded (C31). All but the ring answers: every interleaving. The ring answers: Histories of any length: the _exact_iff theorems say exactly for which capacities (rounded-up hints) the ring is a queue for ever, and that for all others some program (or interleaving) sees wrong bytes. The _partial theorems cover the histories of the latter whose stream position fits the word."
  },
  {
   "property": "C104",
   "status": "proved",
   "theorems": [
    "C104_pages",
    "C104_files",
    "C104_quiet",
    "C104_ports_kept",
    "C104_ports_made"
   ],
   "note": "The counterpart of C93 on macOS. Without overflow checks, rings above half of the address space are excluded (C31)."
  },
  {
   "property": "C105",
   "status": "proved",
   "theorems": [
    "C105_write_xor_execute",
    "C105_write_xor_execute_macos",
    "C105_write_xor_execute_windows",
    "C105_no_execute",
    "C105_no_execute_macos",
    "C105_no_execute_windows",
    "C105_made",
    "C105_made_windows",
    "C105_converted_windows",
    "C12_into_map_mut"
   ],
   "note": "Exact permissions of new maps: C105_made (POSIX), C105_made_windows; of converted maps: C12_into_map_mut (POSIX), C105_converted_windows. Like into_map_mut, into_map asks for reading and writing (C13)."
  },
  {
   "property": "C106",
   "status": "proved",
   "theorems": [
    "C106_page_table",
    "C106_answers",
    "C106_map_file",
    "C106_map_anon",
    "C106_map_unmap",
    "C106_protect_iff",
    "C106_flush",
    "C106_bytes",
    "C106_will_not_need",
    "C106_protect_copy_refuted",
    "C106_map_file_iff",
    "C106_map_anon_iff",
    "C106_unmap_iff",
    "C106_flush_iff",
    "C106_lock_iff",
    "C106_advise_iff"
   ],
   "note": "The refuted theorem shows that protect(ReadCopy) leaves a shared view shared. What other processes do in between is not part of these histories (C100 and before)."
  },
  {
   "property": "C107",
   "status": "proved",
   "theorems": [
    "C107_page_table",
    "C107_answers",
    "C107_map_file_iff",
    "C107_map_anon_iff",
    "C107_unmap_iff",
    "C107_protect_iff",
    "C107_lock_iff",
    "C107_flush_iff",
    "C107_unmap_len_refuted"
   ],
   "note": "The refuted theorem: unmap ignores its length. Single calls: C33, C61-C64. A file mapped with length 0 (the rest of the file) is not part of these histories (C61)."
  },
  {
   "property": "C108",
   "status": "partial",
   "theorems": [
    "C108_reader_partial",
    "C108_reader_64bit",
    "C108_writer_partial",
    "C108_writer_64bit"
   ],
   "note": "Covered: histories whose stream position fits the word (every history of fewer than 2^64 bytes on 64-bit, of fewer than 2^32 on 32-bit), and any history without overflow checks where the capacity divides the word; the rest is false (C34_ring_32bit_refuted; C84 gives the exact conditions for histories of any length)."
  },
  {
   "property": "C109",
   "status": "proved",
   "theorems": [
    "C109_page_table",
    "C109_mirror"
   ],
   "note": "Answers, errors and contents of a new ring: C27, C28."
  },
  {
   "property": "C110",
   "status": "proved",
   "theorems": [
    "C110_page_table",
    "C110_mirror"
   ],
   "note": "Answers, errors, ports and contents of a new ring, and lengths that are not whole pages or too large: C31."
  },
  {
   "property": "C111",
   "status": "proved",
   "theorems": [
    "C111_page_table",
    "C111_mirror",
    "C111_map_answers",
    "C111_unmap_answers",
    "C111_unmap_iff",
    "C111_unmap_both_refuted"
   ],
   "note": "The page table assumes that no VirtualFree or UnmapViewOfFile fails while a ring is made (the code ignores such failures: C32); the mirror does not. That success of unmap_ring means that the whole ring is gone is refuted. Contents of a new ring, and what is left of a failed one: C32, C63."
  }
 ]
}