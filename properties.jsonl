{"id": "C01", "title": "Zig-zag coding is a bijection", "statement": "zigzag_encode maps n>=0 to 2n and n<0 to -2n-1; zigzag_decode inverts it in both directions, so no two i64 values share an encoding and every u64 is the encoding of exactly one i64.", "quantifier": "every i64 and every u64", "why_tests_cant": "2^64 inputs; the existing test checks 9 values", "anchors": ["smdiff-common/src/lib.rs: zigzag_encode, zigzag_decode"]}
{"id": "C02", "title": "u-varint round trip", "statement": "For every u64, writing it with write_u_varint succeeds and reading those bytes back, with arbitrary bytes following, returns the value and leaves exactly the following bytes unread.", "quantifier": "every u64, every trailing byte sequence", "why_tests_cant": "2^64 values times unbounded suffixes", "anchors": ["smdiff-common/src/lib.rs: write_u_varint, read_u_varint"]}
{"id": "C03", "title": "u-varint length", "statement": "The number of bytes write_u_varint emits equals u_varint_encode_size, lies between 1 and 10, and is the least length for which the value fits in 7 bits per byte.", "quantifier": "every u64", "why_tests_cant": "all byte-length boundaries for all values", "anchors": ["smdiff-common/src/lib.rs: write_u_varint, u_varint_encode_size"]}
{"id": "C04", "title": "u-varint reader accepts the whole LEB128 grammar and detects truncation", "statement": "Any protobuf-style encoding of a u64 in at most 10 bytes (also over-long ones) is read as its value with exact consumption; a byte sequence that ends before a byte without continuation bit is never read as a value (and is an end-of-file error when it has at most 10 bytes).", "quantifier": "every LEB128 byte string of up to 10 bytes, every truncation", "why_tests_cant": "unbounded set of encodings and truncation points", "anchors": ["smdiff-common/src/lib.rs: read_u_varint"]}
{"id": "C05", "title": "i-varint round trip", "statement": "For every i64, reading what write_i_varint wrote, followed by arbitrary bytes, returns the value and leaves exactly the following bytes.", "quantifier": "every i64, every trailing byte sequence", "why_tests_cant": "2^64 values", "anchors": ["smdiff-common/src/lib.rs: write_i_varint, read_i_varint"]}
{"id": "C06", "title": "Untrusted varints: exact behaviour (finding: bits are lost, debug builds panic)", "statement": "One would rely on read_u_varint returning an error for every byte string that is not the encoding of a u64. That is refuted; what holds is: an encoding of up to 10 bytes is read as its value modulo 2^64 (high bits silently dropped); 10 continuation bytes followed by anything panic in overflow-checked builds; without overflow checks the reader never panics: it returns some value or an end-of-file error.", "quantifier": "every byte string, debug and release builds", "why_tests_cant": "adversarial inputs of every length", "anchors": ["smdiff-common/src/lib.rs: read_u_varint"]}
{"id": "C07", "title": "Copy-address delta round trip", "statement": "For any last address and any new address, decoding the encoded difference against the same last address returns the new address; in overflow-checked builds the only exception is a distance of exactly 2^63, which panics (on one side or the other).", "quantifier": "every pair of u64 addresses, debug and release builds", "why_tests_cant": "2^128 pairs; wrap-around corners", "anchors": ["smdiff-common/src/lib.rs: diff_addresses_to_i64, diff_addresses_to_u64"]}
{"id": "C08", "title": "Section header round trip", "statement": "Reading back a written section header, with anything following, returns the same compression algorithm (0-7), format, continuation flag, operation count and output size, the add-byte count for segregated format (0 for interleaved), and leaves exactly what followed.", "quantifier": "every header with u32 fields, algorithm <= 7 and add bytes <= output size; every suffix", "why_tests_cant": "2^100 headers", "anchors": ["smdiff-writer/src/lib.rs: write_section_header", "smdiff-reader/src/lib.rs: read_section_header"]}
{"id": "C09", "title": "Operation round trip", "statement": "Every operation the format allows (Run 1..62, Copy/Add up to 65535 bytes, any u64 copy address relative to any last address) is read back unchanged by read_op from what the writer emitted, with exact consumption and the same updated last addresses.", "quantifier": "every operation, every pair of last addresses, every suffix, both formats", "why_tests_cant": "all sizes x addresses x history of last addresses", "anchors": ["smdiff-writer/src/lib.rs: write_op_byte_and_size, write_op_addtl", "smdiff-reader/src/lib.rs: read_op"]}
{"id": "C10", "title": "Section round trip", "statement": "If write_section_header and write_ops succeed on a list of operations whose Adds are at most 65535 bytes, read_section on these bytes (with anything following) returns exactly these operations in order and leaves exactly what followed, in both formats. (Overflow-checked builds: provided no two consecutive copy addresses of a kind are exactly 2^63 apart.)", "quantifier": "every operation list and consistent header, both formats, every suffix", "why_tests_cant": "unbounded operation lists and data", "anchors": ["smdiff-writer/src/lib.rs: write_section_header, write_ops", "smdiff-reader/src/lib.rs: read_section, read_ops_no_comp"]}
{"id": "C11", "title": "Section iterator yields exactly the written sections, then stops", "statement": "Iterating over the concatenation of written sections, where only the last has the continuation flag clear, yields each section's operations in order and then None, on this and on every later call, whatever bytes follow the last section (same provisos as the section round trip).", "quantifier": "every sequence of sections, every suffix, any number of further calls", "why_tests_cant": "unbounded sequences and call histories", "anchors": ["smdiff-reader/src/lib.rs: SectionIterator::next_borrowed, next", "smdiff-decoder/src/reader.rs: SectionIterator::next_borrowed, next"]}
{"id": "C12", "title": "Writer validation is exact", "statement": "With Adds of at most 65535 bytes, write_ops returns Ok exactly when the header's output size is at most 16,777,215 and equals the sum of operation lengths, its operation count equals the list length, for segregated format its add-byte count equals the bytes of the Adds, every Run has length 1..62 (and, in overflow-checked builds, no copy address lies exactly 2^63 below the previous one of its kind).", "quantifier": "every operation list and header", "why_tests_cant": "unbounded lists; boundary sizes", "anchors": ["smdiff-writer/src/lib.rs: write_ops"]}
{"id": "C13", "title": "Long literals: accepted by the writer, unreadable afterwards (finding)", "statement": "One would rely on: if writing a section returns Ok then it can be read back as the same operations. That is refuted: an Add of more than 65535 bytes is accepted with a header carrying its length modulo 65536, and no byte string whatsoever is ever read as such an operation. (With Adds of at most 65535 bytes the claim holds, see C10.)", "quantifier": "every operation list, including Adds longer than 65535 bytes", "why_tests_cant": "needs >64 KiB Add operations and a length coincidence", "anchors": ["smdiff-writer/src/lib.rs: write_op_byte_and_size, write_ops", "smdiff-common/src/lib.rs: Op::oal"]}
{"id": "C14", "title": "Writer panics exactly on illegal runs", "statement": "Writing operations panics if and only if the header passes the first two checks (output size limit, operation count) and some Run has length 0 or above 62 (or, in overflow-checked builds, some copy address lies exactly 2^63 below the previous one of its kind).", "quantifier": "every operation list and header that passes the first two checks", "why_tests_cant": "all lengths and positions in the list", "anchors": ["smdiff-writer/src/lib.rs: write_op_byte_and_size, write_ops"]}
{"id": "C15", "title": "Sectioning is a partition within limits", "statement": "make_sections splits an operation list into consecutive non-empty groups (one empty group for an empty list) whose concatenation is the list; each group's output is at most the requested size clamped to 65,535..16,777,215; headers carry the true operation count, output size and add-byte count; exactly the last section has the continuation flag clear.", "quantifier": "every operation list, every requested section size", "why_tests_cant": "unbounded lists and sizes; greedy boundary behaviour", "anchors": ["smdiff-writer/src/lib.rs: make_sections"]}
{"id": "C16", "title": "Add-byte count of the header returned by reading: exact behaviour (finding: wrong)", "statement": "One would rely on the returned header's num_add_bytes being the number of bytes in the section's Adds (the documentation of read_ops_no_comp says so). That is refuted: for every written section the count read back is twice the true number in segregated format and 0 in interleaved format, hence right only for sections without literals.", "quantifier": "every section, both formats", "why_tests_cant": "wrong for all inputs of one kind, no existing test looks", "anchors": ["smdiff-reader/src/lib.rs: read_ops_no_comp, read_section"]}
{"id": "C17", "title": "Successful read agrees with the header", "statement": "If reading a section succeeds, the number of operations equals the header's count, every operation is within the format limits (Run 1..62, Add/Copy at most 65535) and the sum of their lengths equals the header's output size: exactly in overflow-checked builds, modulo 2^32 without overflow checks (finding: a release build accepts a section that claims output size 0 and produces 2^32 bytes).", "quantifier": "every byte string, debug and release builds", "why_tests_cant": "adversarial byte strings; needs 65,538 operations to wrap", "anchors": ["smdiff-reader/src/lib.rs: read_ops_no_comp, read_op"]}
{"id": "C18", "title": "Truncation is always detected", "statement": "Applying any proper prefix of a written patch of plain sections fails with an end-of-file error, whatever the dictionary and the prior sink contents; iterating over the sections of the prefix ends in an end-of-file error before all sections were yielded.", "quantifier": "every patch and every cut point", "why_tests_cant": "every byte position of every patch", "anchors": ["smdiff-reader/src/lib.rs: read_section, SectionIterator", "smdiff-decoder/src/lib.rs: apply_patch"]}
{"id": "C19", "title": "Bytes after the last section are ignored", "statement": "Applying a patch followed by arbitrary bytes gives exactly the result of applying the patch alone.", "quantifier": "every patch, every suffix", "why_tests_cant": "unbounded suffixes", "anchors": ["smdiff-decoder/src/lib.rs: apply_patch", "smdiff-decoder/src/reader.rs: SectionIterator"]}
{"id": "C20", "title": "Reader accepts every conforming operation encoding", "statement": "Any encoding allowed by the specification's size rules (direct 1..62, one byte plus 62, 16-bit little endian) and any LEB128 copy delta is read as the operation it denotes, including encodings this writer never produces (e.g. 62..317 in one size byte).", "quantifier": "every operation, every allowed encoding of it, every suffix", "why_tests_cant": "other encoders' outputs; unbounded", "anchors": ["smdiff-reader/src/lib.rs: read_op, read_op_byte", "smdiff-common/src/lib.rs: size_routine", "spec.md: 4.2"]}
{"id": "C21", "title": "Operation byte layout (finding: spec.md's table is not what is written)", "statement": "The operation byte of every written operation carries the operation type in its two high bits and the size value of spec.md in its six low bits, followed by the size bytes. The table in spec.md 4.2.1 (type in bits 0-1, size in bits 2-7) is refuted.", "quantifier": "every operation", "why_tests_cant": "interoperability with another implementation of the spec", "anchors": ["smdiff-writer/src/lib.rs: write_op_byte_and_size", "smdiff-common/src/lib.rs: OP_MASK, SIZE_MASK", "spec.md: 4.2.1"]}
{"id": "C22", "title": "Unknown secondary compression is read as uncompressed (finding)", "statement": "One would rely on a section whose header names an unspecified compression algorithm (4-7) being rejected. That is refuted: every such section is read and applied exactly as if it were uncompressed.", "quantifier": "every section body", "why_tests_cant": "all algorithm values with all bodies", "anchors": ["smdiff-decoder/src/reader.rs: SectionIterator::read_ops"]}
{"id": "C23", "title": "Applying a patch produces the meaning of its operations", "statement": "On an empty sink, apply_patch of written sections succeeds exactly when every copy lies inside the dictionary or inside the output produced so far, and the sink then holds exactly the bytes obtained by performing the operations one after the other.", "quantifier": "every sequence of sections, every dictionary, both formats", "why_tests_cant": "unbounded operation sequences and data", "anchors": ["smdiff-decoder/src/lib.rs: apply_patch, apply_ops"]}
{"id": "C24", "title": "Section boundaries, format and secondary compression do not change the result", "statement": "Two patches carrying the same operation list, cut into sections differently, written in different formats or with different secondary compression, produce the same output (or both fail).", "quantifier": "every operation list, every two section sizes and formats", "why_tests_cant": "unbounded lists and cut points", "anchors": ["smdiff-writer/src/lib.rs: make_sections", "smdiff-encoder/src/writer.rs: section_writer", "smdiff-decoder/src/lib.rs: apply_patch"]}
{"id": "C25", "title": "Out-of-range copies are errors", "statement": "On an empty sink, a dictionary copy that leaves the dictionary or an output copy that reaches past the bytes produced so far (also overlapping copies) makes apply_patch return an end-of-file error, never wrong bytes.", "quantifier": "every operation list, every position of the bad copy, every dictionary", "why_tests_cant": "all addresses up to 2^64-1 in all states", "anchors": ["smdiff-decoder/src/lib.rs: apply_ops"]}
{"id": "C26", "title": "A failed application leaves exactly the output of the operations before the failure", "statement": "When apply_patch stops with an error the sink holds the bytes produced by the operations that preceded the failing one (whole sections are parsed before being applied), nothing else.", "quantifier": "every patch, every failure point", "why_tests_cant": "every crash point", "anchors": ["smdiff-decoder/src/lib.rs: apply_patch, apply_ops"]}
{"id": "C27", "title": "Effect of prior sink contents (finding: stale bytes can be copied)", "statement": "apply_patch overwrites from position 0 and bytes of the sink beyond the new output survive; if the patch is valid on its own (every output copy stays within output produced so far) the new bytes do not depend on the old contents. Without that proviso independence is refuted: an output copy reaching past the produced bytes succeeds and copies stale sink bytes.", "quantifier": "every patch, every prior sink content", "why_tests_cant": "needs dirty sinks of every length", "anchors": ["smdiff-decoder/src/lib.rs: apply_ops"]}
{"id": "C28", "title": "Missing dictionary: panic, exactly when a dictionary copy is reached (finding)", "statement": "One would rely on an error as documented when a patch that copies from the dictionary is applied without one. That is refuted: application without a dictionary panics exactly when execution reaches a dictionary copy; a patch without dictionary copies behaves as with any dictionary.", "quantifier": "every patch applied without dictionary", "why_tests_cant": "all positions of the first dictionary copy", "anchors": ["smdiff-decoder/src/lib.rs: apply_ops"]}
{"id": "C29", "title": "smdiff secondary compression is lossless", "statement": "A section written with smdiff secondary compression is decoded to exactly its operations, consuming exactly its bytes, so that following sections stay aligned.", "quantifier": "every section, format, matcher configuration with a legal table size, and suffix", "why_tests_cant": "inner patch is itself an encoder output; unbounded data", "anchors": ["smdiff-encoder/src/writer.rs: section_writer", "smdiff-decoder/src/reader.rs: SectionIterator::read_ops"]}
{"id": "C30", "title": "zstd/brotli secondary compression is lossless given lossless codecs", "statement": "If the external codec decompresses what it compressed and consumes exactly that, then a section written with it is decoded to exactly its operations and following sections stay aligned.", "quantifier": "every section, format and codec satisfying the contract", "why_tests_cant": "unbounded data; codec treated as oracle", "anchors": ["smdiff-encoder/src/writer.rs: section_writer", "smdiff-decoder/src/reader.rs: SectionIterator::read_ops"]}
{"id": "C31", "title": "Encode/apply round trip", "statement": "Whenever encode returns Ok for a source and target, applying the written patch to that source yields exactly the target.", "quantifier": "every source, every target, every encoder configuration (matchers, formats, section sizes, naive tests, lazy length, secondary compression), debug and release builds", "why_tests_cant": "unbounded data and configurations; hash collisions and overlapping matches", "anchors": ["smdiff-encoder/src/lib.rs: encode", "smdiff-encoder/src/encoder.rs: encode_inner", "smdiff-encoder/src/op_maker.rs: translate_inner_ops"]}
{"id": "C32", "title": "encode can panic with the default configuration (finding)", "statement": "One would rely on encode returning normally for every source, target and configuration. That is refuted: with the default configuration there are a source and a target (a match of at least 90 bytes ending 6 bytes before the end of the target) for which encode panics before writing anything, in both build modes.", "quantifier": "every source and target, default configuration", "why_tests_cant": "needs a precise tail length after a long match", "anchors": ["smdiff-encoder/src/encoder.rs: encode_inner (StartNewMatch)"]}
{"id": "C33", "title": "Encoding is total in safe configurations", "statement": "encode returns Ok (no panic, no error, no endless loop) for every source and target, format, section size, lazy escape length and compression, provided: chain-table capacities are absent, 0 or a power of two; the naive start test does not fire together with target matching (one is off, the source is empty, or the target is not the source followed by more bytes); and, when source matching is on, the window is at most 2^63 (debug) and no right-maximal match of at least the lazy escape length ends 5 to 8 bytes before the end of the target. In particular encode is total without source matching, for targets of at most the lazy escape length plus 4 bytes, and at every compression level when no match of 90 bytes or more ends 5 to 8 bytes before the end; and the patch then always applies back to the target.", "quantifier": "every source and target in those configurations", "why_tests_cant": "unbounded data; requires invariants over the whole matcher state", "anchors": ["smdiff-encoder/src/encoder.rs: encode_inner", "smdiff-encoder/src/trgt_matcher.rs: find_best_trgt_match", "smdiff-encoder/src/hashmap.rs: PrevPositionIterator"]}
{"id": "C34", "title": "Encoder output respects the format limits", "statement": "Every operation encode writes has length 1..65535 (Run 1..62), every section produces at most the configured size clamped to 65,535..16,777,215, and the last section alone is terminal.", "quantifier": "every source, target and configuration for which encode returns", "why_tests_cant": "unbounded data, chunk boundaries at 62, 372, 65535", "anchors": ["smdiff-encoder/src/op_maker.rs: make_add_ops, make_copy_ops, make_run_ops", "smdiff-encoder/src/lib.rs: encode"]}
{"id": "C35", "title": "A patch encoded without dictionary needs none", "statement": "If encode is given no dictionary (or an empty one), the patch contains no dictionary copy and applies without dictionary.", "quantifier": "every target and configuration for which encode returns", "why_tests_cant": "unbounded data", "anchors": ["smdiff-encoder/src/lib.rs: encode", "smdiff-encoder/src/encoder.rs: encode_inner"]}
{"id": "C36", "title": "Overlapping candidate matches are resolved into an exact tiling", "statement": "From any position-sorted list of verified candidate matches with increasing ends, operation making yields operations whose execution is exactly the target and never hits an assertion.", "quantifier": "every target, every sound candidate list", "why_tests_cant": "overlap geometry of unbounded candidate lists", "anchors": ["smdiff-encoder/src/op_maker.rs: translate_inner_ops"]}
{"id": "C37", "title": "Chunking of long literals, copies and runs is exact", "statement": "Splitting a literal, a copy or a run of any length into operations yields operations within the limits that produce exactly these bytes, including the self-referencing copies used for runs of 372 bytes and more; literals and copies are split into as few operations as the format allows (one per 65535 bytes, rounded up), runs below 372 bytes into one per 62 bytes, and longer runs into at most twelve more than a copy of their length.", "quantifier": "every length, byte, start position, and preceding output", "why_tests_cant": "all lengths; doubling behaviour at 65535", "anchors": ["smdiff-encoder/src/op_maker.rs: make_add_ops, make_copy_ops, make_run_ops"]}
{"id": "C38", "title": "Rolling checksums equal fresh checksums", "statement": "Rolling the 9-byte checksum forward or backward, or the 4-byte checksum forward, by one byte gives exactly the checksum computed from scratch at the new position.", "quantifier": "every window content and every next byte", "why_tests_cant": "256^10 windows; depends on modular constants", "anchors": ["smdiff-encoder/src/hasher.rs: update_large_checksum_fwd, update_large_checksum_bwd, update_small_checksum_fwd, calculate_large_checksum, calculate_small_checksum"]}
{"id": "C39", "title": "Hash table lookups are sound", "statement": "After any sequence of insertions, a lookup returns either nothing or the position most recently inserted under exactly that hash; the bucket index is always in bounds; the most recent insertion is always found.", "quantifier": "every insertion history and capacity", "why_tests_cant": "unbounded histories, collisions", "anchors": ["smdiff-encoder/src/hashmap.rs: BasicHashTable::insert, get, BucketValue::set, get"]}
{"id": "C40", "title": "Target matching can loop for ever (finding)", "statement": "One would rely on encode terminating for every input. That is refuted: with target matching and the Append naive test there are a one-byte source and a seven-byte target for which the walk along the chain of previous positions never ends, in both build modes.", "quantifier": "every store history the encoder can produce", "why_tests_cant": "cyclic structure reachable only for particular data", "anchors": ["smdiff-encoder/src/hashmap.rs: PrevPositionIterator::next, ChainList::insert", "smdiff-encoder/src/trgt_matcher.rs: TrgtMatcherConfig::build"]}
{"id": "C41", "title": "Append naive test with a short tail panics (finding)", "statement": "One would rely on encode returning for every target when the Append or AppendPrepend naive test and target matching are enabled. That is refuted: for every non-empty source and every target consisting of the source followed by 2 or 3 bytes (also 1 byte when a chain capacity is configured), encode panics without writing anything.", "quantifier": "every source and target", "why_tests_cant": "needs a precise tail length", "anchors": ["smdiff-encoder/src/trgt_matcher.rs: TrgtMatcherConfig::build"]}
{"id": "C42", "title": "Target matching misses immediate repeats (finding)", "statement": "One would rely on a long repeat of earlier target bytes being found and encoded as an output copy when target matching is enabled. That is refuted: at the highest level a block of 20 different bytes followed by itself is written as one 40-byte literal.", "quantifier": "every target with a repeated block", "why_tests_cant": "statistical tests only see a worse ratio", "anchors": ["smdiff-encoder/src/trgt_matcher.rs: TrgtMatcherConfig::build", "smdiff-encoder/src/encoder.rs: encode_inner (StartNewMatch)"]}
{"id": "C43", "title": "Chain-table capacities other than 0 and the powers of two panic (finding)", "statement": "One would rely on TrgtMatcherConfig::with_table_capacity accepting any capacity. That is refuted: with every capacity that is neither 0 nor a power of two, encode panics for every non-empty target, whatever the other settings.", "quantifier": "every capacity", "why_tests_cant": "all capacities", "anchors": ["smdiff-encoder/src/hashmap.rs: ChainList::new", "smdiff-encoder/src/trgt_matcher.rs: with_table_capacity"]}
{"id": "C44", "title": "Compression-level mapping is monotone and in range", "statement": "Mapping a level through Ranger stays within the output range, hits both end points and is monotone (increasing, or decreasing for inverted ranges), without arithmetic underflow.", "quantifier": "every input range of at least two values, every output range, every level", "why_tests_cant": "all range combinations", "anchors": ["smdiff-encoder/src/lib.rs: Ranger::new, Ranger::map"]}
{"id": "C45", "title": "Controlling operation lookup is exact", "statement": "On position-sorted, contiguous operations find_controlling_op returns the unique operation whose output range contains the position, and None exactly when no operation does.", "quantifier": "every contiguous operation list, every position", "why_tests_cant": "unbounded lists; binary search boundaries", "anchors": ["smdiff-merger/src/lib.rs: find_controlling_op"]}
{"id": "C46", "title": "Exact slices reproduce the output range", "statement": "For every contiguous list of operations that is right in place (each operation makes the bytes of the whole output at its position), get_exact_slice returns, when the range is covered, contiguous operations starting at the range, of exactly its length, right in place, which executed after the output before the range yield exactly the output up to its end; and None exactly when the range is not covered.", "quantifier": "every contiguous operation list of non-empty operations, every range", "why_tests_cant": "unbounded lists; clipping at both ends", "anchors": ["smdiff-merger/src/lib.rs: get_exact_slice, MergeOp::skip, MergeOp::trunc"]}
{"id": "C47", "title": "Dereferencing output copies preserves meaning", "statement": "deref_copy_o turns every valid operation list into a contiguous one of well-formed operations, without output copies, that produces the same output for every dictionary.", "quantifier": "every valid operation list, every dictionary", "why_tests_cant": "chains of copies of copies of any depth", "anchors": ["smdiff-merger/src/lib.rs: deref_copy_o"]}
{"id": "C48", "title": "Merging two patches composes them", "statement": "Applying the merger of patch 2 over patch 1 to a source gives the same bytes as applying patch 1 and then patch 2.", "quantifier": "every source and every two patches valid on it", "why_tests_cant": "unbounded patches; index shifting", "anchors": ["smdiff-merger/src/lib.rs: Merger::new, Merger::merge, expand_to"]}
{"id": "C49", "title": "Merging a chain of patches composes the whole chain", "statement": "Merging any number of predecessor patches (with non-empty operations, as every patch made by encode has), newest first, succeeds and yields a summary of well-formed operations without output copies that is equivalent to applying all patches oldest first. (Debug builds: the newest patch must satisfy C52.)", "quantifier": "every chain length, every source", "why_tests_cant": "unbounded chains", "anchors": ["smdiff-merger/src/lib.rs: Merger::merge, Merger::finish"]}
{"id": "C50", "title": "Early termination is sound", "statement": "When merging reports a summary patch early, it has no copies at all, its output is the final target for every source, and patches older than those merged so far (whatever their contents) cannot change it.", "quantifier": "every chain that terminates early, every source", "why_tests_cant": "all sources", "anchors": ["smdiff-merger/src/lib.rs: Merger::new, Merger::merge, SummaryPatch"]}
{"id": "C51", "title": "A written merged patch decodes to the composition", "statement": "Writing the merged summary with any section size, format and secondary compression and applying the bytes to the oldest source gives the newest target, whenever writing succeeds; writing always succeeds (with smdiff compression: when its chain-table capacity is absent, 0 or a power of two).", "quantifier": "every chain, section size, format", "why_tests_cant": "end-to-end over unbounded data", "anchors": ["smdiff-merger/src/lib.rs: SummaryPatch::write", "smdiff-decoder/src/lib.rs: apply_patch"]}
{"id": "C52", "title": "Merger::new panics on patches with output copies only (finding)", "statement": "One would rely on Merger::new accepting every valid patch. That is refuted: in builds with debug assertions it panics on exactly the valid patches that copy from the output but never from the dictionary (any repetitive file without a dictionary); it accepts all others, and release builds accept all.", "quantifier": "every valid patch, debug and release builds", "why_tests_cant": "needs output-only copies", "anchors": ["smdiff-merger/src/lib.rs: Merger::new"]}
{"id": "C53", "title": "Extraction statistics count copies twice (finding)", "statement": "One would rely on the statistics returned with extracted instructions being the real byte and operation counts. That is refuted: counts and bytes of adds and runs and the output-copy count are right, but copied bytes are doubled, the dictionary-copy count is twice the dictionary copies plus the output copies, and the output size exceeds the true one by the copied bytes, for every patch.", "quantifier": "every patch", "why_tests_cant": "wrong for every patch with a copy", "anchors": ["smdiff-merger/src/lib.rs: extract_patch_instructions, Stats"]}
{"id": "C54", "title": "Extracted positions are the true output offsets", "statement": "extract_patch_instructions succeeds on exactly the readable patches and returns the operations of all sections in order, each with the output offset at which it starts.", "quantifier": "every patch", "why_tests_cant": "unbounded patches", "anchors": ["smdiff-merger/src/lib.rs: extract_patch_instructions"]}
{"id": "C55", "title": "Transcoding preserves the output", "statement": "For every readable patch with at least one operation (fewer than 2^32 operations or none empty, copy addresses below 2^63), transcode succeeds in every format, section size and compression (smdiff compression: with a chain-table capacity that is absent, 0 or a power of two), and whenever it succeeds applying the result gives the same sink and the same result as applying the input, for every dictionary (or none) and every prior sink, whatever bytes follow.", "quantifier": "every non-empty patch, target format, section size, dictionary", "why_tests_cant": "unbounded patches; joining of adjacent adds and runs", "anchors": ["smdiff-merger/src/transcoder.rs: transcode, optimize_and_convert_ops, join_adjacent_adds, join_adjacent_runs"]}
{"id": "C56", "title": "Transcoded operations respect the limits", "statement": "A transcoded patch, read back, has only operations within the format limits, no empty Add or Run, no more operations than the input, the same copies in the same order, headers that tell the truth, the requested format and compression, and sections no larger than the requested size clamped to the limits.", "quantifier": "every patch", "why_tests_cant": "joined lengths can exceed the limit before splitting", "anchors": ["smdiff-merger/src/transcoder.rs: make_add_ops, make_run_ops, optimize_and_convert_ops"]}
{"id": "C57", "title": "Transcoding panics on a patch without operations (finding)", "statement": "One would rely on transcode succeeding on every readable patch. That is refuted: on every patch without operations, such as every patch encode makes for an empty target, transcode panics, in both build modes, having written nothing.", "quantifier": "every patch, debug and release builds", "why_tests_cant": "empty patch edge", "anchors": ["smdiff-merger/src/transcoder.rs: join_adjacent_adds, join_adjacent_runs"]}
{"id": "C58", "title": "VCDIFF conversion preserves the output", "statement": "For every VCDIFF instruction stream (adds, runs, source, target and sequence copies, in windows over the source, over earlier output or over nothing) that turns a source into an output below 2^63 bytes and has no sequence copy whose period and length both exceed 65535, conversion succeeds, applying the result to the source yields exactly that output whatever bytes follow, and the patch read back has only non-empty operations within the limits, true headers and interleaved uncompressed sections of at most 16777215 bytes.", "quantifier": "every instruction stream with sequence slices of 1..65535 bytes", "why_tests_cant": "unbounded streams, window bookkeeping", "anchors": ["smdiff-vcdiff/src/lib.rs: convert_vcdiff_to_smdiff"]}
{"id": "C59", "title": "VCDIFF streams with a long-period sequence copy cannot be converted (finding)", "statement": "One would rely on conversion succeeding for every valid VCDIFF stream. That is refuted: for every valid stream (output below 2^32 bytes) with a sequence copy whose period and length both exceed 65535 bytes, conversion fails with InvalidData in both build modes.", "quantifier": "every instruction stream", "why_tests_cant": "needs a >64 KiB period", "anchors": ["smdiff-vcdiff/src/lib.rs: convert_vcdiff_to_smdiff (CopyQ)"]}
{"id": "C60", "title": "Non-overlapping matches are all used", "statement": "If the verified candidate matches do not overlap, the literals of the operations made from them cover at most the target bytes outside the matches: no match is thrown away.", "quantifier": "every target, source and list of sound, disjoint candidates", "why_tests_cant": "unbounded candidate lists and lengths", "anchors": ["smdiff-encoder/src/op_maker.rs: translate_inner_ops"]}
{"id": "C61", "title": "Merging a predecessor that does not fit panics (finding)", "statement": "One would rely on Merger::merge returning an error (or at least a wrong patch) when the predecessor is not the one the newest patch was made against. That is refuted: whenever the predecessor's output is too short for some dictionary copy of the newest patch, merge panics, in both build modes.", "quantifier": "every pair of valid patches that do not fit together in this way", "why_tests_cant": "needs every operation list and copy position", "anchors": ["smdiff-merger/src/lib.rs: Merger::merge, get_exact_slice"]}
{"id": "C62", "title": "Transcoding does not optimise as documented (finding)", "statement": "One would rely (rustdoc of transcode) on adjacent Adds being grouped and on long runs being turned into copies. That is refuted: of three adjacent Adds the first two are joined and the third stays apart, and the copies of a transcoded patch are always exactly those of the input, however long the runs.", "quantifier": "every patch that reads as three adjacent Adds; every patch", "why_tests_cant": "needs every literal and every run length", "anchors": ["smdiff-merger/src/transcoder.rs: join_adjacent_adds, join_adjacent_runs, make_run_ops"]}
{"id": "C63", "title": "Encoded patches conform to the format specification", "statement": "Every patch encode returns, and every patch written section by section with the writer, has the layout of spec.md 4/5 (apart from the operation-byte table, C21): sections with control byte, counts and sizes as documented, numbers as shortest LEB128, copy addresses as zig-zag differences starting at 0 in each section, literals inline or segregated at the end, continuation bit on all but the last, bodies stored as they are or compressed by the named algorithm; and the operations so laid out produce the target from the dictionary.", "quantifier": "every target, dictionary, configuration, codec, build mode", "why_tests_cant": "a grammar over unbounded byte strings; tests only check that this library's own reader agrees", "anchors": ["smdiff-encoder/src/lib.rs: encode", "smdiff-encoder/src/writer.rs: section_writer", "smdiff-writer/src/lib.rs: write_section_header, write_ops", "spec.md 4, 5"]}
{"id": "C64", "title": "Every conforming patch is accepted", "statement": "Every byte string with the layout of spec.md 4/5, whoever wrote it (any version bits, over-long numbers of up to 10 bytes, any admissible size form, both formats, any of the compressions, also nested), is applied as the meaning of its operations: the output if all copies are in range, otherwise an end-of-file error; bytes behind it are ignored. Likewise read_section returns exactly the operations of a conforming section.", "quantifier": "every conforming byte string, dictionary, trailing bytes, codec whose decoder undoes the compression, build mode", "why_tests_cant": "the conforming strings are far more than those this library writes", "anchors": ["smdiff-decoder/src/lib.rs: apply_patch", "smdiff-decoder/src/reader.rs", "smdiff-reader/src/lib.rs: read_section", "spec.md 4, 5"]}
{"id": "C65", "title": "Compactness of written sizes (finding: 64..317 are a byte too long)", "statement": "One would rely on sizes being written in the shortest form of the specification, whose one-byte size indicator covers 62..317. That is refuted: the size is written in the shortest form for every operation except those of 64 to 317 bytes, whose head is always one byte longer than necessary.", "quantifier": "every operation within the limits", "why_tests_cant": "needs every size and every competing encoding", "anchors": ["smdiff-common/src/lib.rs: size_routine", "smdiff-writer/src/lib.rs: write_op_byte_and_size"]}
{"id": "C66", "title": "Overflow-checked and release builds agree", "statement": "For every input, a build with overflow checks (debug) either panics or behaves exactly as a build without: same bytes written, same result. This holds for encoding (levels included), applying, reading sections, writing headers, operations and sections, merging and writing merged patches, transcoding and VCDIFF conversion.", "quantifier": "every input of every API function, both build modes", "why_tests_cant": "differences show only on inputs that overflow somewhere; no test runs both builds on all inputs", "anchors": ["smdiff-encoder/src/lib.rs: encode", "smdiff-decoder/src/lib.rs: apply_patch", "smdiff-reader/src/lib.rs: read_section", "smdiff-writer/src/lib.rs", "smdiff-merger/src/lib.rs", "smdiff-merger/src/transcoder.rs", "smdiff-vcdiff/src/lib.rs: convert_vcdiff_to_smdiff"]}
{"id": "C67", "title": "Arbitrary bytes as a patch (finding: crafted patches panic)", "statement": "In a release build, reading a section from any bytes ends with a result or an error, and applying any bytes with a source ends with Ok, an error, or - this refutes what one would rely on - a panic, and only in two cases: a section compressed with smdiff holds an inner patch that copies from a dictionary (8 bytes suffice), or a section compressed with zstd does not begin with a valid zstd frame header (3 bytes suffice). Neither build ever loops forever.", "quantifier": "every byte string, source, sink, codec that itself ends with a result or error", "why_tests_cant": "robustness against all byte strings; fuzzing samples", "anchors": ["smdiff-decoder/src/lib.rs: apply_patch, apply_no_sec_comp, apply_ops", "smdiff-decoder/src/reader.rs: read_ops", "smdiff-reader/src/lib.rs"]}
{"id": "C68", "title": "Output size is bounded by patch size", "statement": "Applying n bytes of any content leaves at most 65535 * max(65535, K) * n bytes in an empty sink, whether it succeeds or fails, where K is the worst expansion of the external decompressors.", "quantifier": "every byte string, dictionary, codec expanding by at most K, build mode", "why_tests_cant": "a bound on every possible (also hostile) patch", "anchors": ["smdiff-decoder/src/lib.rs: apply_patch, apply_ops", "smdiff-decoder/src/reader.rs", "smdiff-reader/src/lib.rs: read_op"]}
{"id": "C69", "title": "A shared beginning is not resent", "statement": "If the target begins with L >= 9 bytes that also begin the dictionary, and the target does not start with four equal bytes, encode sends at most the bytes after the shared beginning plus 10 as literals, whatever the level, format, segment size or secondary compression, provided dictionary matching is on without a naive test and the dictionary is long enough to be indexed with the configured step.", "quantifier": "every dictionary, target, shared length, configuration with a dictionary matcher, build mode", "why_tests_cant": "the space of files and configurations is unbounded; ratio tests sample a few files", "anchors": ["smdiff-encoder/src/encoder.rs: encode_inner", "smdiff-encoder/src/src_matcher.rs: SrcMatcher::new, find_best_src_match", "smdiff-encoder/src/op_maker.rs: translate_inner_ops"]}
{"id": "C70", "title": "An unchanged file costs only copies", "statement": "Encoding a file against itself succeeds and yields exactly ceil(n/65535) operations, all copies from the dictionary, for every legal configuration with a dictionary matcher, when the file is long enough to be indexed and does not start with four equal bytes.", "quantifier": "every file, legal configuration, build mode", "why_tests_cant": "unbounded files and configurations", "anchors": ["smdiff-encoder/src/lib.rs: encode", "smdiff-encoder/src/encoder.rs: encode_inner", "smdiff-encoder/src/src_matcher.rs: SrcMatcher::new"]}
{"id": "C71", "title": "Naive tests find appended and prepended data", "statement": "With the Append test, a target that is the dictionary followed by new bytes is encoded with at most 10 bytes more than the new ones as literals; with the Prepend test a target that ends in the dictionary costs at most 6 more - also if only the target matcher is on.", "quantifier": "every dictionary, every added data, configuration with the naive test, build mode", "why_tests_cant": "unbounded inputs", "anchors": ["smdiff-encoder/src/lib.rs: encode", "smdiff-encoder/src/encoder.rs: encode_inner", "smdiff-encoder/src/op_maker.rs: translate_inner_ops"]}
{"id": "C72", "title": "A dictionary too short to be indexed is never used (finding)", "statement": "One would rely on a dictionary identical to the target being used. That is refuted for short dictionaries: when the dictionary is too short to be indexed with the configured step (less than 27 bytes by default) and no naive test is set, no patch encode makes copies from it, so an unchanged short file is sent in full.", "quantifier": "every short dictionary, target, configuration without naive test, build mode", "why_tests_cant": "every target", "anchors": ["smdiff-encoder/src/src_matcher.rs: SrcMatcher::new", "smdiff-encoder/src/hashmap.rs: BasicHashTable", "smdiff-encoder/src/encoder.rs: encode_inner"]}
{"id": "C73", "title": "A merged patch is a patch like any other", "statement": "Writing the result of merging a chain gives a patch that turns the oldest source into the newest target in every build, can stand for the patches it was made from in any longer chain (as an older, middle or newest patch), and never triggers the debug panic that Merger::new has for some patches.", "quantifier": "every chain, settings of the written patch, build modes of both sides", "why_tests_cant": "chains and patches are unbounded", "anchors": ["smdiff-merger/src/lib.rs: Merger::new, merge, finish", "smdiff-merger/src/lib.rs: SummaryPatch::write"]}
{"id": "C74", "title": "Merging in steps equals merging at once", "statement": "Merging the newer patches of a chain, writing the result (any format, section size, compression) and merging that with the older patches yields exactly the same operations as merging the whole chain in one go.", "quantifier": "every chain, every split into newer and older part, settings of the intermediate patch, build modes", "why_tests_cant": "all splits of all chains", "anchors": ["smdiff-merger/src/lib.rs: Merger::new, merge, finish", "smdiff-merger/src/lib.rs: SummaryPatch::write, deref_copy_o"]}
{"id": "C75", "title": "Every workflow of the tools preserves the result", "statement": "Every patch made by any combination of encode, transcode, merging chains and writing the summary, and VCDIFF conversion, each step with any settings in any build, applies to its source and yields its target, in every build. Merging such chains succeeds in release builds; writing the summary and transcoding (of a non-empty target) succeed in every build.", "quantifier": "every finite workflow, every file, settings, build mode per step", "why_tests_cant": "workflows nest without bound", "anchors": ["smdiff-encoder/src/lib.rs: encode", "smdiff-merger/src/transcoder.rs: transcode", "smdiff-merger/src/lib.rs: Merger, SummaryPatch::write", "smdiff-vcdiff/src/lib.rs: convert_vcdiff_to_smdiff", "smdiff-decoder/src/lib.rs: apply_patch"]}
{"id": "C76", "title": "Everything the tools write conforms to the format", "statement": "Every patch made by such a workflow has the layout of spec.md 4 and 5 (section headers with true counts, numbers in shortest LEB128 form, continuation flags, secondary compression), and its operations, as laid out there, turn the source into the target.", "quantifier": "every finite workflow, every file, settings, build mode per step", "why_tests_cant": "workflows nest without bound; conformance of the writer for all operations", "anchors": ["smdiff-encoder/src/lib.rs: encode", "smdiff-merger/src/transcoder.rs: transcode", "smdiff-merger/src/lib.rs: SummaryPatch::write", "smdiff-vcdiff/src/lib.rs: convert_vcdiff_to_smdiff", "spec.md"]}
{"id": "C77", "title": "Accepted patches are prefix-free", "statement": "Whatever bytes apply_patch accepts, there is one beginning of them that is the patch: it is accepted with the same result whatever bytes follow it, and every shorter beginning of it fails (with an end-of-file error, if the external decoders report cut-off data so). So a truncated accepted patch is never silently applied as if it were complete.", "quantifier": "every byte string, dictionary, sink, build mode, external decoder that does not take cut-off data for complete", "why_tests_cant": "all byte strings and all truncation points", "anchors": ["smdiff-decoder/src/lib.rs: apply_patch", "smdiff-decoder/src/reader.rs: SectionReader", "smdiff-reader/src/lib.rs: read_section"]}
{"id": "C78", "title": "Interrupted writing and interrupted applying are detected", "statement": "If a patch made by any workflow of the tools (encode, transcode, merge, VCDIFF conversion) was only partly written, at whatever byte the writing stopped, apply_patch, Merger::new, Merger::merge and transcode fail (with an end-of-file error, if the external decoders report cut-off data so); what apply_patch has put into the sink until then is a beginning of the true target, with the rest of the old contents behind it.", "quantifier": "every workflow, every crash point, sink contents, build mode", "why_tests_cant": "every crash point of every patch", "anchors": ["smdiff-decoder/src/lib.rs: apply_patch", "smdiff-merger/src/lib.rs: Merger::new, Merger::merge", "smdiff-merger/src/transcoder.rs: transcode"]}
{"id": "C79", "title": "Arbitrary bytes given to the merger and the transcoder (finding: panics where apply_patch reports an error)", "statement": "In a build without overflow checks: Merger::new, Merger::merge (on any merger reached with patches of any origin whose operations are not empty) and transcode always end. Bytes that cannot be read as a patch are rejected with an error, or with the section reader's panic of C67, and nothing is written. A readable patch is accepted by Merger::new exactly if it copies nothing or all its copies from the output start inside and stay within the output produced so far; by Merger::merge exactly if this holds and every dictionary copy of the merged patch so far starts inside and stays within the predecessor's output; by transcode exactly if it has operations. All other readable patches panic (one would rely on an error, as apply_patch gives), among them a patch that applies, whose last operation copies nothing from the end of the output; with non-empty operations every patch that applies is accepted.", "quantifier": "every byte string, every reachable merger, all settings of transcode, every external decoder that returns results or errors", "why_tests_cant": "all byte strings and all histories of merging", "anchors": ["smdiff-merger/src/lib.rs: Merger::new, Merger::merge, deref_copy_o, get_exact_slice", "smdiff-merger/src/transcoder.rs: transcode"]}
{"id": "C80", "title": "Operation buffers are appended to", "statement": "read_ops_no_comp and read_section, given a buffer that already holds operations, leave these in front unchanged (also when they fail) and append exactly what they would put into an empty buffer; header, consumption and error do not depend on what the buffer held, in both formats (in segregated sections the literals that are filled in later are those of this section).", "quantifier": "every byte string, header, buffer contents, build mode", "why_tests_cant": "all buffer contents and inputs", "anchors": ["smdiff-reader/src/lib.rs: read_ops_no_comp, read_section"]}
{"id": "C81", "title": "Section iterators: every history of calls", "statement": "Over any bytes that read as a patch, the section iterators of smdiff-reader and smdiff-decoder, called in any mixture of next_borrowed and next, yield the sections in order (decompressed, in the case of the decoder's) and then None, however often they are called; after the last section the iterator's source stands right behind the patch (for the decoder's iterator this is the buffered source; the reader underneath, which into_inner returns, may be up to 8192 bytes further on, see C86). Over other bytes they yield the readable sections and then the error of the first unreadable one. apply_patch is the loop over this iterator.", "quantifier": "every byte string, every sequence of calls, build mode, codec", "why_tests_cant": "all call histories", "anchors": ["smdiff-reader/src/lib.rs: SectionIterator", "smdiff-decoder/src/reader.rs: SectionIterator", "smdiff-decoder/src/lib.rs: apply_patch"]}
{"id": "C82", "title": "I/O failures while a patch is applied", "statement": "Whichever I/O call of apply_patch fails (reading the patch, seeking or reading the source, seeking, reading or writing the sink), and however many bytes of a failing write reach the sink: the error is returned, success never, nothing is written after it, and the sink holds a beginning of what applying without failure would have put there, over its old contents. If no call fails everything is as usual.", "quantifier": "every byte string given as patch, dictionary or none, sink contents and position, every failing call, every partial write", "why_tests_cant": "every fault point of every input", "anchors": ["smdiff-decoder/src/lib.rs: apply_patch, apply_ops"]}
{"id": "C83", "title": "Applying again heals", "statement": "A patch that turns the source into the target can be applied again to the sink a failed attempt (any failing I/O call, any partial write) or a complete one left: the sink then holds the target, followed by what it originally held behind it. So retrying is safe and applying twice is applying once.", "quantifier": "every patch that applies, source, sink contents, fault point, build mode", "why_tests_cant": "every fault point and history of two attempts", "anchors": ["smdiff-decoder/src/lib.rs: apply_patch, apply_ops"]}
{"id": "C84", "title": "Writers that fail (disk full)", "statement": "Whatever writes a patch (writing a section header or section, with or without secondary compression; encode; writing a merge summary; transcode; converting VCDIFF) writes into a writer that accepts only so many bytes exactly the beginning of what it would otherwise write: if all of it fits the outcome is unchanged, if not the writer's error is returned, never success, and nothing more is written. And a patch cut off in this way by encode, transcode, the converter or the merger is never taken for a patch: applying, merging or transcoding it fails.", "quantifier": "every input and configuration of each writing function, every number of bytes the writer accepts, build mode", "why_tests_cant": "every fault point of every output", "anchors": ["smdiff-writer/src/lib.rs: write_section_header, write_ops", "smdiff-encoder/src/lib.rs: encode", "smdiff-encoder/src/writer.rs: section_writer", "smdiff-merger/src/lib.rs: SummaryPatch::write", "smdiff-merger/src/transcoder.rs: transcode", "smdiff-vcdiff/src/lib.rs: convert_vcdiff_to_smdiff"]}
{"id": "C85", "title": "Scratch buffer of section_writer (finding: stale bytes after a failure)", "statement": "section_writer with secondary compression writes the header and then the compressed form of what the caller's scratch buffer already held followed by the section; after success the buffer is empty, so a buffer that was empty once serves for any number of successful sections; without compression the buffer is neither read nor changed. That a section is written right whatever happened before is refuted: when the writer fails after the section was serialised, the buffer keeps these bytes, and the next successful call with the same buffer silently writes a section that applies as something else.", "quantifier": "every section, compression, buffer contents and number of bytes the writer accepts", "why_tests_cant": "all buffer contents, all fault points", "anchors": ["smdiff-encoder/src/writer.rs: section_writer"]}
{"id": "C86", "title": "Readers that do not stand at their start (findings: positions)", "statement": "encode reads its inputs from where they stand to their end, and apply_patch reads the patch from where its reader stands, while the source's position does not matter (addresses count from its start). So a patch encoded from a dictionary reader standing at p applies to the dictionary without its first p bytes, and that it applies to the same dictionary is refuted. After a successful apply_patch the patch reader stands behind the patch, at most 8192 bytes further on, and at the end of the file if at most 8192 bytes were left; hence that several patches in one file can be applied one after the other from one reader is refuted.", "quantifier": "every configuration, contents and position of every reader, build mode, codec that takes some bytes and leaves the rest", "why_tests_cant": "all contents and positions", "anchors": ["smdiff-encoder/src/lib.rs: encode", "smdiff-decoder/src/lib.rs: apply_patch, apply_ops", "smdiff-decoder/src/reader.rs: SectionIterator::new"]}
{"id": "C87", "title": "Features that are switched off are off", "statement": "Without dictionary matching and naive tests encode ignores the dictionary altogether (same bytes or same failure as without a dictionary), the patch has no dictionary copies and applies without a dictionary. Without target matching every output copy in the patch only repeats a single byte (a long run). Without both, whatever the naive tests, the patch consists of the target as literals in pieces of 65535 bytes (a run for a one-byte target).", "quantifier": "every configuration with the feature off, dictionary, target, build mode", "why_tests_cant": "all inputs", "anchors": ["smdiff-encoder/src/lib.rs: encode", "smdiff-encoder/src/encoder.rs: encode_inner", "smdiff-encoder/src/op_maker.rs: translate_inner_ops"]}
{"id": "C88", "title": "Target matching finds no repeats before the first long match (finding)", "statement": "One would rely on target matching finding repeated blocks. That is refuted for a large class of inputs: the matcher starts with the checksum 0 instead of that of the first four bytes and only rolls it on, until a match of at least lazy_escape_len (90 if unset) bytes makes the encoder jump. Hence, when the target has no 90 equal bytes in a row and no 90 bytes in common with the dictionary, and its start is not special (e.g. the sum of the first four bytes is odd and the target has at most 2^30 bytes), no repeat at all is found at any level: output copies in the patch only repeat one byte. If moreover no four equal bytes follow each other and no nine bytes come from the dictionary, the patch is byte for byte the one without any matching; so any block repeated any number of times is sent as literals.", "quantifier": "every such target and dictionary, level and target-matcher setting, format, compression, build mode", "why_tests_cant": "all inputs and settings; a unit test only sees a worse ratio", "anchors": ["smdiff-encoder/src/trgt_matcher.rs: TrgtMatcherConfig::build (fwd_hash: 0)", "smdiff-encoder/src/encoder.rs: encode_inner (StartNewMatch, MoveForwardOneByte)", "smdiff-encoder/src/hasher.rs: update_small_checksum_fwd"]}
{"id": "C89", "title": "The lazy matching length: what the values mean, and a wrong default (finding)", "statement": "An unset lazy_escape_len, which is what EncoderConfig::default and comp_level leave, behaves as 90 on every input; all values from 0 to 4 behave alike (never lazy) and so do all values above the target's length - byte for byte, failures included. That the default is 45, as documented, is refuted: there is an input on which the default configuration and the same with 45 give different patches.", "quantifier": "every configuration, dictionary, target, build mode", "why_tests_cant": "all inputs", "anchors": ["smdiff-encoder/src/lib.rs: EncoderConfig (documentation), EncoderConfig::default, comp_level, set_lazy_escape_len", "smdiff-encoder/src/encoder.rs: encode_inner (unwrap_or(90), FoundMatch)"]}
{"id": "C90", "title": "As few sections as possible", "statement": "make_sections (and so encode, the merger's and the transcoder's writers) splits the operations into the smallest possible number of sections: however they are split, in order, into sections whose output is at most the section size in use (the requested size clamped to 65535 .. 2^24-1), there are at least as many. In numbers there are at most 1 + 2 * output size / section size.", "quantifier": "every list of operations within the format limits, every requested section size", "why_tests_cant": "optimality over all ways of splitting every list of operations", "anchors": ["smdiff-writer/src/lib.rs: make_sections", "smdiff-encoder/src/lib.rs: encode"]}
{"id": "C91", "title": "Size of a patch", "statement": "The size of a written patch is exactly the sum, over sections, of a header cost and of the costs of the operations, given by a closed formula (one byte per operation, 0/1/2 size bytes, the literal bytes, 1 byte for a run, and one byte per 7 bits of the zig-zag difference of copy addresses); both section formats take the same number of bytes for the operations. What encode writes without secondary compression has exactly that size; it is between literals + operations + 3 * sections and literals + 13 * operations + 13 * sections bytes. With matching off the patch exceeds the target by at most 3 bytes per 65535 and 13 per section.", "quantifier": "every patch written by the API with addresses below 2^63, every configuration without secondary compression, dictionary and target, both build modes", "why_tests_cant": "all inputs; an upper bound", "anchors": ["smdiff-writer/src/lib.rs: write_section_header, write_ops", "smdiff-encoder/src/lib.rs: encode", "smdiff-common/src/lib.rs: write_u_varint, size_routine"]}
{"id": "C92", "title": "Memory requested while reading (finding: the operation count is trusted)", "statement": "Reading a section asks for room for exactly as many operations as the header states, before any operation is read; the memory asked for literals is at most 21845 times the bytes given, also when reading fails; if reading succeeds the room asked for is the number of operations, which is at most the number of bytes read. That the memory requested is in proportion to the bytes given is refuted: 7 bytes make every reader reserve room for 2^32 - 1 operations and then report the end of input.", "quantifier": "every byte string, both build modes", "why_tests_cant": "all inputs, memory requests are not visible in results", "anchors": ["smdiff-reader/src/lib.rs: read_section, read_ops_no_comp (reserve), read_op (vec![0u8; size])"]}
{"id": "C93", "title": "Section headers with any field values (finding: large algorithm numbers corrupt the header)", "statement": "For every header the types allow: writing succeeds except that a build with overflow checks panics on a segregated header with more literal bytes than output bytes; a header written and read in the same build comes back exactly, the algorithm modulo 8 and the continuation flag also set by bit 4 of the algorithm, whenever it is segregated or bit 3 of the algorithm is clear. Headers made with the builder, its setters called in any order and number, always come back with the values given last, or the defaults no compression, interleaved, last section (algorithms above 7 become 7), and the compressed and interleaved queries answer, before and after, exactly that a non-zero algorithm and the interleaved format were given. The version bits never influence reading. Refuted: an interleaved header with bit 3 of the public algorithm field set is read as segregated, with the output size taken for the number of literal bytes; and a segregated header with more literal than output bytes, written without overflow checks, panics a reader with them.", "quantifier": "every header, every following bytes, both build modes", "why_tests_cant": "all field combinations", "anchors": ["smdiff-common/src/lib.rs: SectionHeader::{new,set_compression_algo,set_format,set_more_sections}", "smdiff-writer/src/lib.rs: write_section_header", "smdiff-reader/src/lib.rs: read_section_header"]}
{"id": "C94", "title": "Patches read from any reader", "statement": "Reading a section, and applying a patch, gives the same result from every reader whose bytes are the same: the reader may return fewer bytes than it is asked for, in pieces of any sizes, and may be interrupted any number of times; smdiff-decoder reads it through a BufReader. The bytes left in front of the reader after a section are the same too. (Assumed: the reader does not fail, an interrupted call has taken nothing, and the external decompressors do on the buffered reader what they do on its bytes.)", "quantifier": "every reader (any type of state and any behaviour within that contract), every byte sequence, dictionary and sink, both build modes", "why_tests_cant": "all ways of cutting the input", "anchors": ["smdiff-reader/src/lib.rs: read_section", "smdiff-decoder/src/lib.rs: apply_patch", "smdiff-decoder/src/reader.rs: SectionIterator"]}
{"id": "C95", "title": "Streaming decompression (finding: an empty target with brotli cannot be applied)", "statement": "Patches made by encode with zstd, brotli, smdiff or no secondary compression are applied correctly by a decoder that decompresses as it goes, asking the decompressor for exactly the bytes the operations need: any settings and dictionary, any target (with brotli: any non-empty target), whatever follows the patch. Refuted for the empty target with brotli: nothing is read from the decompressor, which therefore has not seen the end of its data; apply_patch reports an error for every such patch, with every dictionary and sink, in every build. With zstd the patch of the empty target is applied.", "quantifier": "every configuration, dictionary, target and streaming decoder that meets the contract, all builds of the encoder and of the decoder", "why_tests_cant": "all targets and all behaviours of the decompressors within the contract", "anchors": ["smdiff-decoder/src/reader.rs: SectionIterator::read_ops", "smdiff-encoder/src/lib.rs: encode", "smdiff-encoder/src/writer.rs: section_writer"]}
{"id": "C96", "title": "Any files as inputs and as sink", "statement": "encode reads its inputs, and apply_patch reads the patch, reads and seeks in the source, and reads, seeks and writes in the sink, through whatever the caller passes. How these cut the data (reads that return fewer bytes than asked for, writes that take fewer than offered, interrupted calls, any position) makes no difference: encode writes the same patch, apply_patch has the same outcome and leaves the same bytes in the sink, after a success and after a failure, and the source unchanged; so the round trip holds over any files, also those that take only offsets below 2^63.", "quantifier": "every reader, source and sink that gives its bytes in order and takes at least one byte per write, with interruptions anywhere; every patch, dictionary, target, settings and old sink contents", "why_tests_cant": "a test uses a Cursor or one file; the property is over every sequence of short reads, short writes and interruptions", "anchors": ["smdiff-encoder/src/lib.rs: encode", "smdiff-decoder/src/lib.rs: apply_patch, apply_ops"]}
{"id": "C97", "title": "Calling a section iterator again after an error (finding: it never ends, and goes on inside the bad section)", "statement": "Both section iterators, called again whatever they returned: None is returned exactly after a section marked as the last one, so an error never ends the iteration; every section returned is what reading gives at some position of the input, after an error the one where the error occurred; from call number 'length of the input' on, there are only end-of-file errors or None. Refuted, that skipping errors is harmless: over a patch cut off anywhere, the reader's iterator returns the whole sections that are there and then end-of-file errors for ever (a caller that flattens the results hangs), and over a section with an illegal operation the next call returns operations from the middle of that section.", "quantifier": "every input, build, number of calls; every behaviour of read_exact after a failure that leaves an end of the input, likewise for the decompressors; every patch and every cut", "why_tests_cant": "tests stop at the first error; the claim is about every continuation after it, over every damaged input", "anchors": ["smdiff-reader/src/lib.rs: SectionIterator, read_section", "smdiff-decoder/src/reader.rs: SectionIterator"]}
{"id": "C98", "title": "Size of a merged patch (finding: merging can enlarge a patch thousands of times)", "statement": "The merged patch of any chain, written without secondary compression, has at most one operation per byte of the newest target and exactly the size its operations and sections have by the format: at most 13 bytes for each of them plus the literal bytes, with at most 1 + 2 |target| / section size sections. Merging never joins operations: if the operations of the newest patch other than copies from the output produce at most L bytes each, so does every operation of the merged patch, and it has at least |target| / L of them. Refuted, that merging keeps patches about as small as their parts: for every n there is a patch of at most 14 n + 300 bytes whose merge, alone or onto any older patches, takes more than 65535 n bytes.", "quantifier": "every chain of patches, build, codec, section size and format; every L; every n and source byte", "why_tests_cant": "tests merge a few patches and look at the output, not at the size of what is written for every chain", "anchors": ["smdiff-merger/src/lib.rs: Merger::new, merge, finish, deref_copy_o, get_exact_slice, SummaryPatch::write", "smdiff-writer/src/lib.rs: make_sections"]}
{"id": "C99", "title": "Transcoding: what it leaves alone, there and back, size (finding: not idempotent, and it can grow a patch)", "statement": "Transcoding a patch none of whose neighbouring operations can be joined or respelled changes only the envelope: the result reads as exactly the same operations. For such a patch a detour over any other format, secondary compression and section size gives byte for byte what direct transcoding gives, and if encode or the merger wrote it, transcoding to its own settings gives the identical file. Without secondary compression the transcoded patch costs exactly what its operations and sections cost by the format: at most 13 bytes per operation and section plus the literal bytes of the original, in at most 1 + 2 |target| / section size sections. Refuted, that transcoding is idempotent (a second pass with the same settings can join literals the first left apart) and that it never enlarges a patch.", "quantifier": "every readable patch, build, codec, format, compression and section size", "why_tests_cant": "tests transcode a few patches once; that nothing changes in a detour, and how large the result can be, range over all of them", "anchors": ["smdiff-merger/src/transcoder.rs: transcode, optimize_and_convert_ops, make_add_ops, make_run_ops", "smdiff-merger/src/lib.rs: SummaryPatch::write", "smdiff-writer/src/lib.rs: make_sections"]}
{"id": "C100", "title": "Patch readers that fail (finding: with zstd the failure is a panic)", "statement": "If the reader of a patch fails (a broken connection, a bad disk block) after it has given some bytes, in pieces of any sizes and with any interruptions, then apply_patch, Merger::new, merge and transcode either report the reader's own error, or the bytes before the failure already determined the outcome, which is then the same as for these bytes whatever could have followed. The sink holds exactly what applying the bytes before the failure writes; transcode has written nothing. If the failure comes inside a patch made by the tools it is always reported and the sink holds a beginning of the target over what was there before. With a reader that does not fail the way it cuts the patch makes no difference to merger and transcoder. Refuted, that the failure of the reader never panics: when it comes between the header of a section with zstd and the end of the zstd magic number, all of them panic.", "quantifier": "every reader, every number of bytes before the failure, every error, piece sizes, interruptions, patch, source, sink, build and codec", "why_tests_cant": "tests read patches from memory; failures at every byte, in every piece size, range over all readers and patches", "anchors": ["smdiff-decoder/src/reader.rs: SectionIterator::read_header, read_ops", "smdiff-decoder/src/lib.rs: apply_patch", "smdiff-merger/src/lib.rs: extract_patch_instructions, Merger::new, Merger::merge", "smdiff-merger/src/transcoder.rs: transcode"]}
{"id": "C101", "title": "Applying a patch in place (finding: a wrong result without an error, and no second chance)", "statement": "If the source and the sink of apply_patch are the same file, a patch that fits the file is always applied without an error and writes as many bytes as the target has; the file then begins with the target exactly if no copy from the source reads a byte that the new contents have already changed. So patches whose source copies never read before the place they write to, and patches encoded without source matching, can always be applied in place; the rest of a longer file remains behind the target. Transcoding a patch does not change what it does in place. Refuted, that encode's patches can be applied in place: with the default configuration a byte put in front of a file gives a patch that destroys it, silently; and refuted that after an interruption the patch can be applied again.", "quantifier": "every patch, file, codec and build", "why_tests_cant": "tests use separate sources and sinks; which patches are safe ranges over all sequences of copies and all file contents", "anchors": ["smdiff-decoder/src/lib.rs: apply_patch, apply_ops", "smdiff-merger/src/transcoder.rs: transcode", "smdiff-encoder/src/lib.rs: encode"]}
{"id": "C102", "title": "Applying a patch to another source (finding: a wrong source is not noticed)", "statement": "A patch for one source, applied to any other: it is an error exactly if the other source is too short for one of its copies; otherwise it succeeds with an output of the right length, and the output is right exactly if both sources have the same bytes at all places the patch copies. Every byte of the output is a byte of the patch or the byte at one fixed position of the source, whatever the source contains, and the positions used are exactly those copied. Refuted, that a wrong source is noticed.", "quantifier": "every patch, pair of sources, sink, codec and build", "why_tests_cant": "tests apply patches to the source they were made for; what happens with every other source, and which bytes matter, ranges over all sources", "anchors": ["smdiff-decoder/src/lib.rs: apply_patch, apply_ops", "smdiff-encoder/src/lib.rs: encode"]}
{"id": "C103", "title": "The encoder on targets with 32-bit pointers (finding: with overflow checks it cannot use a source larger than its window)", "statement": "With 32-bit pointers the rolling checksum still equals the one computed from scratch in both directions, and the hash table still returns the latest position under a hash and loses a hash only to a later insertion of another. The source window: without overflow checks the source matcher never panics wherever the encoder goes and proposes only matches that are there; with overflow checks searching panics as soon as the output has reached half a window past the start, exactly if the source does not fit into the window (32 MiB of output and 64 MiB of source by default).", "quantifier": "every window, hash history, source and target below 2 GiB, matcher configuration, sequence of positions and build", "why_tests_cant": "the constants and the arithmetic differ from the 64-bit ones the tests run with; the panic needs sources of more than a window, and correctness ranges over all byte windows and histories", "anchors": ["smdiff-encoder/src/hasher.rs: calculate_large_checksum, update_large_checksum_fwd, update_large_checksum_bwd (32-bit constants)", "smdiff-encoder/src/hashmap.rs: BasicHashTable", "smdiff-encoder/src/src_matcher.rs: calculate_window_range, add_start_positions_to_matcher"]}
{"id": "C104", "title": "Applying patches on targets with 32-bit pointers (finding: outputs from 4 GiB are silently wrong)", "statement": "On a target with 32-bit pointers apply_patch does exactly what it does on 64-bit targets as long as the output stays below 4 GiB (unless a section inflates to 2 GiB in memory, which panics). From 4 GiB on a build with overflow checks panics; one without is wrong: whenever a section begins at or behind 4 GiB the output is too short, so every encoded target of 4 GiB + 16 MiB or more comes out wrong; for patches without copies from the output the decoder reports success nevertheless.", "quantifier": "every patch, source, sink, codec and build; every encoded target", "why_tests_cant": "needs outputs of over 4 GiB on a 32-bit machine; the equivalence below that ranges over all patches", "anchors": ["smdiff-decoder/src/lib.rs: apply_patch, apply_ops", "smdiff-decoder/src/reader.rs: SectionReader"]}
{"id": "C105", "title": "Searching the target for a repeat: exactly what is found", "statement": "The target matcher answers exactly as its settings promise for the entries it holds: among the first chain_check true repeats (a quarter of that, at least one, when only longer matches help) filed under the checksum searched, newest first and not touching the place searched, it returns the first that is at least compress_early_exit bytes long, otherwise the first of the longest; older entries than the chain capacity are forgotten except the newest with that checksum. Entries with the same checksum but other bytes, and repeats that touch the place, do not count. Every search of the encoder is such a search. At the same place larger settings never find a shorter match, and settings large enough find the longest repeat. Findings: a newer word with another checksum in the same slot hides every repeat whatever the settings; and a higher compression level can write a larger patch.", "quantifier": "every target, every sequence of entries at increasing positions and every position searched, every early exit, chain length and legal capacity; every state the encoder visits without naive tests; every pair of settings; with and without overflow checks", "why_tests_cant": "what is found depends on the whole history of insertions, evictions and overwritten chain links; a test sees one history, and missing a repeat only makes the patch larger", "anchors": ["smdiff-encoder/src/trgt_matcher.rs: find_best_trgt_match, store, build, TrgtMatcherConfig::comp_level", "smdiff-encoder/src/hashmap.rs: BasicHashTable::insert, ChainList::insert, PrevPositionIterator::next"]}
{"id": "C106", "title": "What a search of the dictionary finds (and what it never finds)", "statement": "When encode looks for the next target bytes in the dictionary, the answer is exactly this: among the indexed dictionary positions (multiples of the step: match_step, at least 1) the lowest one whose nine bytes fall into the same slot of the index as the nine target bytes; if the nine bytes are equal the match is extended to the right as far as both agree, and to the left as far as both agree but never to the first byte of dictionary or target; otherwise nothing is found. With one window (always up to 64 MiB with the default window) the indexed positions are all multiples of the step below a stop that is 9 bytes (step >= 9) or 18 bytes (step < 9) and rounding before the end of the dictionary. So a word that is indexed is found, at its lowest place, unless another earlier word shares its slot, and a common block of step + 8 bytes contains an indexed word; the match need not be the longest; blocks that only begin within the last 18 (or step + 9) bytes of the dictionary are never found, and neither is a target of exactly nine bytes (findings).", "quantifier": "All dictionaries, targets, dictionary-matching settings, naive tests, lazy settings, build modes, and all states the encoder reaches", "why_tests_cant": "It speaks about every state the encoder reaches on every input: which of unboundedly many positions is found depends on slot collisions in the whole index, which tests on a few inputs do not explore.", "anchors": ["smdiff-encoder/src/src_matcher.rs: SrcMatcher::find_best_src_match, add_start_positions_to_matcher, calculate_window_range, extend_src_match, SrcMatcherConfig::build", "smdiff-encoder/src/encoder.rs: encode_inner", "smdiff-encoder/src/hashmap.rs: BasicHashTable"]}
{"id": "C107", "title": "What is found is not resent; runs are not resent", "statement": "Whatever the settings (build mode, format, compression, levels, naive test, lazy setting), when encode succeeds: of every match that the matchers hand over to op making at most 13 bytes are sent as literals (and 13 is reached by some list of matches), and, if target matching is on, or dictionary matching is on with a non-empty dictionary, of any number of equal bytes in a row in the target, wherever they stand, at most 30 are sent as literals. Without a matcher the whole target is one literal.", "quantifier": "All dictionaries, targets, configurations, build modes, formats and compressors, and all stretches of equal bytes in the target", "why_tests_cant": "It bounds the literals inside every stretch of every target; whether a run is kept depends on all overlapping matches before and after it, an unbounded history.", "anchors": ["smdiff-encoder/src/op_maker.rs: translate_inner_ops", "smdiff-encoder/src/encoder.rs: encode_inner", "smdiff-encoder/src/lib.rs: encode"]}
{"id": "C108", "title": "Blocks of the dictionary are not resent; how many words the index holds", "statement": "With dictionary matching on (one window, lazy matching on, no naive test): of a block that the target shares with the dictionary, at most D + 26 bytes are sent as literals, wherever the block stands in both and whatever surrounds it, where D is the greatest distance between words of the block that the index holds (D is the step if it holds all of them), provided the block has no four equal bytes in a row and nothing as long as the lazy limit matches at another place at any position of the block. The index holds a word only if no earlier indexed word of the dictionary shares its slot, so no matter what is searched for, the number of different positions that can be found is at most the number of slots, which is about half or a third of the number of words for most dictionary sizes (finding).", "quantifier": "All dictionaries, targets, blocks, dictionary-matching settings, with or without target matching, lazy settings, build modes, formats and compressors", "why_tests_cant": "It bounds the literals in every shared block of every target; which words are held depends on the whole dictionary, and whether a match survives depends on every match found before and after.", "anchors": ["smdiff-encoder/src/src_matcher.rs: SrcMatcher::find_best_src_match, add_start_positions_to_matcher, SrcMatcherConfig::build", "smdiff-encoder/src/encoder.rs: encode_inner", "smdiff-encoder/src/op_maker.rs: translate_inner_ops", "smdiff-encoder/src/hashmap.rs: BasicHashTable", "smdiff-encoder/src/lib.rs: encode"]}
{"id": "C109", "title": "Encoding when a reader or a compressor fails", "statement": "If a reader fails, its error is returned and nothing has been written; if a compressor fails or panics on a section, that is the outcome, and what was written is what a healthy run writes before that section's compressed data plus what the compressor wrote; success is reported only for a healthy run's patch, and the remains of a failed run are never taken for a patch (if the compressor had not written everything). With readers and compressors that work, the patch is that of the bytes left in the readers, which stand at their ends afterwards.", "quantifier": "All readers (contents, positions, points of failure), compressors that may fail on any data after writing anything, configurations, build modes", "why_tests_cant": "Readers may fail at any byte and compressors on any section; positions are arbitrary.", "anchors": ["smdiff-encoder/src/lib.rs: encode", "smdiff-encoder/src/writer.rs: section_writer"]}
{"id": "C110", "title": "The configuration functions", "statement": "In a configuration made by any chain of the builder calls, every field has the value of the last call about it, or its former value if there is none; no call affects another field, so the order of calls about different fields does not matter. Every configuration can be made from the default one by such calls. Section sizes outside 65535..16777215 behave as the nearer end, a step of 0 as 1, no source window as 2^26, a source window as the next power of two (at least 2^20), on every input. The default is level 3 without target matching or secondary compression; a secondary compression given to comp_level makes the format segregated, one given to set_sec_comp leaves the format as it is.", "quantifier": "All chains of builder calls, all configurations, all dictionaries and targets, build modes", "why_tests_cant": "Chains of calls are unbounded, and equivalent settings must agree on every input.", "anchors": ["smdiff-encoder/src/lib.rs: EncoderConfig (new, no_*, set_*, format_*, comp_level, default), SecondaryCompression, encode", "smdiff-encoder/src/src_matcher.rs: SrcMatcherConfig::new, make_inner_config", "smdiff-encoder/src/trgt_matcher.rs: TrgtMatcherConfig::with_table_capacity"]}
{"id": "C111", "title": "Which sections the reader accepts, exactly", "statement": "For any bytes, reading a section succeeds with given operations, header and rest if and only if the bytes before the rest have a layout that is written down: the first byte gives compression, format and continuation (its three lowest bits are not looked at); the counts are numbers reduced modulo 2^32; operations have documented operation bytes and sizes, an address difference being any number (except -2^63 with overflow checks); operation count and the sum of lengths agree with the header (32-bit sums, which must fit with overflow checks); in segregated sections the output size is the declared number of literal bytes plus the other number, the literal bytes follow all operations, and the returned literal count is the declared one plus the real one. Numbers have at most ten bytes with overflow checks and any length without; those of at most ten bytes are read alike in both builds, modulo 2^64. So sections outside the format are accepted: with a wrong declared number of literal bytes, an operation count of 2^32+1 for one operation, more than 2^24-1 bytes of output, an address difference of 2^64.", "quantifier": "All byte strings, both build modes", "why_tests_cant": "Acceptance is a claim about all byte strings in both directions; tests can only show that some are accepted or refused.", "anchors": ["smdiff-reader/src/lib.rs: read_section_header, read_ops_no_comp, read_section, read_op_byte, read_op", "smdiff-common/src/lib.rs: read_u_varint, read_i_varint, diff_addresses_to_u64, size_routine, oal"]}
{"id": "C112", "title": "Operations that produce nothing", "statement": "The format can express literals and copies of length 0. Applying a patch does the same as applying the patch without them: same bytes, same position, same success or error, wherever the empty copies point. Merging a chain of patches of any origin that contain such operations, whenever it succeeds, in either build, yields a summary that turns the oldest source into the newest target, whose copies from the output are all empty and whose operations are legal except possibly runs of length 0. A release build succeeds whenever every copy, also an empty one, starts inside what it copies from. A summary without runs of length 0 (fewer than 2^32 operations, no empty copy from beyond 2^63) can be written and the written patch applies. Refuted: that empty operations are harmless: an empty copy that falls into a run of the older patch becomes a run of length 0 and writing the summary panics half way (a debug build panics while merging).", "quantifier": "All patches of any origin that apply in a chain, chains of any length, all operations of legal size including empty ones, both build modes, all formats, section sizes and compressions", "why_tests_cant": "Ranges over all operation lists and all positions at which empty operations can occur, and over chains of any length.", "anchors": ["smdiff-merger/src/lib.rs: Merger::new, merge, deref_copy_o, get_exact_slice, find_controlling_op, expand_to, SummaryPatch::write", "smdiff-decoder/src/lib.rs: apply_patch"]}
{"id": "C113", "title": "Merging is substitution, and the order of merging does not matter", "statement": "The summary of a chain of patches is, operation by operation, what substitution says: take the operations of the newest patch without copies from the output (each replaced by what made the bytes it copies), replace each copy from the dictionary by the operations, or parts of operations, of the next older patch that make the bytes it copies, and so on; it depends on the patches' operations only, not on the files' bytes or how the operations are split into sections. Substitution composes (if one list makes B from A and the other C from B, the result makes C from A) and is associative. Hence a history of patches can be merged in any order, oldest first, newest first or in groups, writing intermediate merged patches in any format, section size and compression: all ways end with exactly the same summary operations, and every intermediate patch carries the merge of the operations of its part of the history.", "quantifier": "All chains of well-formed patches of any length, all ways of bracketing the chain into intermediate merges (trees of any shape), all formats, section sizes and lossless compressions of intermediate patches, both build modes", "why_tests_cant": "Ranges over all operation lists, all histories and all merge trees; the result of one order must equal the result of every other.", "anchors": ["smdiff-merger/src/lib.rs: Merger::new, merge, finish, deref_copy_o, get_exact_slice, expand_to, SummaryPatch::write"]}
{"id": "C114", "title": "How often literals and operations are repeated in merged patches", "statement": "Take the patches of a chain with their copies from the output resolved, and let k be the number of times a patch copies any one byte of its source at most. The summary has at most as many literal bytes as the newest patch plus k times what the rest of the chain amounts to, and likewise operations; a byte is copied at most as often as the product of the k. So if no patch copies from its output and none copies a byte twice, merging never adds: at most the literal bytes and operations of all patches together. In any case there are never more literal bytes or operations than the target has bytes. Refuted: that a merged patch is about as large as its parts: a literal that the newer patch copies c times is in the summary c times, and a literal a patch copies c times from its own output is in the summary c + 1 times, even when that patch is merged with nothing.", "quantifier": "All chains of well-formed patches of any length, all operation lists, all multiplicities k; for the refutations all literals of up to 65535 bytes and all c", "why_tests_cant": "Ranges over all operation lists and chains and counts over all bytes of the files; the growth is unbounded.", "anchors": ["smdiff-merger/src/lib.rs: Merger::new, merge, finish, deref_copy_o, get_exact_slice"]}
{"id": "C115", "title": "Merged patches and other sources; where their bytes come from", "statement": "Take a chain of patches and its merge. On a source other than the one they were made for, the chain works exactly if no copy of its oldest patch reaches beyond that source, whatever the source contains; then the merged patch works too and makes the same result. Every byte of the merged patch's output comes from where the patches take it when followed one by one: a literal of one of them, or one position of the source, which the oldest patch copies. So the merged patch makes the right target from a source exactly if that source has the right bytes at those positions, and certainly if it has them wherever the oldest patch copies. Refuted: that merging keeps the errors: where the chain stops with an error because the source is too short for the oldest patch, the merged patch can succeed.", "quantifier": "All chains of well-formed patches of any length, all other sources, all ways of writing the merged patch, all positions", "why_tests_cant": "Ranges over all chains and all sources the patches were not made for, and over every byte of the output.", "anchors": ["smdiff-merger/src/lib.rs: Merger::new, merge, finish, deref_copy_o", "smdiff-decoder/src/lib.rs: apply_patch"]}
{"id": "C116", "title": "How much of a large dictionary is searched (finding: often only the first window)", "statement": "What the source matcher finds at a place of the target starts in the first window of the source (64 MiB unless set otherwise, at least 1 MiB), or less than half a window after the place that is as far into the source as the search is into the target; for targets of at most half a window, always in the first window. In a target without runs, common parts or repeats of lazy_escape_len (90) bytes, every search, however long the target, looks at the window of the first position only. A target none of whose nine-byte words starts in the first window of the dictionary (at a multiple of the step) gets the very patch it would get without a dictionary and without matching, whatever the dictionary contains after that (with no byte four times in a row in the target, and the target matcher off or blind). Refuted: that a block which the dictionary contains is copied from there: for every step and window there are dictionaries that contain the whole target verbatim, after the first window, and it is sent again as literals, every byte.", "quantifier": "All settings of the matchers (steps, windows, escape lengths, naive tests), all sources and targets, all searches the encoder makes", "why_tests_cant": "Ranges over all dictionaries larger than a window (1 MiB to 2^63 bytes) and all histories of the search; a test would need dictionaries of more than 64 MiB.", "anchors": ["smdiff-encoder/src/src_matcher.rs: SrcMatcher, find_best_src_match, add_start_positions_to_matcher, calculate_window_range", "smdiff-encoder/src/encoder.rs: encode_inner"]}
{"id": "C117", "title": "What matching can cost (finding: looking for repeats can make a patch larger)", "statement": "Whatever is matched and with whatever settings, when encode succeeds without secondary compression and target and dictionary have at most 2^(7k-1) bytes (8 KiB for k = 2, 1 MiB for 3, 128 MiB for 4, 16 GiB for 5), the patch is at most (4k+9)/16 of the target plus k + 3 bytes plus 13 bytes per section; in particular, up to 16 GiB, at most twice the target plus 21 bytes. One would rely on target matching never making a patch larger. That is refuted: there are a dictionary and a target of 520 bytes for which turning it on makes the patch 4 bytes larger, at every compression level.", "quantifier": "all targets, dictionaries (up to 2^55 bytes), settings, compression levels and both build modes", "why_tests_cant": "the bound must hold for every arrangement of matches the matchers can find, including overlapping ones that are cut to pieces of two bytes; tests only see particular files", "anchors": ["smdiff-encoder/src/encoder.rs: encode_inner", "smdiff-encoder/src/op_maker.rs: translate_inner_ops, make_run_ops, make_copy_ops, make_add_ops", "smdiff-writer/src/lib.rs: write_ops"]}
{"id": "C118", "title": "How many entries a search looks at (finding: chain_check is no bound)", "statement": "A search of the target looks at the entries of its index filed under the checksum searched, newest first, until those seen hold chain_check true repeats (a quarter of it when only longer matches are of use) or one of at least compress_early_exit bytes, or until none is left: no more of them and no fewer; so never more than the chain table has places (or one), nor than were filed. So every search of encode (without naive tests) looks at no more entries than the chain table has places (or one), nor than bytes have been passed, and encode makes at most four rounds of its main loop, with at most one search of each index, per byte of the target. chain_check is documented as the maximum number of entries to check, 'fallback in case the chain is long'. That is refuted: with chain_check = 1 there are, for every N, a target and an index of N correctly filed entries for which one search looks at all N of them and finds nothing: entries that only share the checksum are not counted.", "quantifier": "all targets, settings, index contents, places searched, numbers of rounds and both build modes", "why_tests_cant": "the number of entries looked at depends on the whole content of the index and on collisions of a 32-bit checksum, which small tests do not produce, and it has no effect on the result", "anchors": ["smdiff-encoder/src/trgt_matcher.rs: find_best_trgt_match, TrgtMatcherConfig.chain_check", "smdiff-encoder/src/hashmap.rs: ChainList::iter_prev_starts"]}
{"id": "C119", "title": "The helper functions of operations (finding: oal is wrong for long literals)", "statement": "Every operation is of exactly one kind (is_add, is_run, is_copy), and take_copy gives the copy exactly if it is one. What write_ops puts in front of an operation's data is one byte whose two high bits are bit_flag (00 copy from the dictionary, 01 copy from the output, 10 add, 11 run) and exactly size_overhead(size_routine(oal)) further bytes, in which the reader finds the same kind and the same number of size bytes; there are none exactly for 1 to 62 bytes; only a run of length 0 or above 62 is not written (a panic before any byte). oal is the number of bytes the operation makes if that is at most 65535; that it always is, as documented, is refuted: for a literal of 65536 bytes it is 0, and the literal is written as an empty one.", "quantifier": "all operations (any fields the types allow, literals of any length) and all bytes that follow", "why_tests_cant": "the claims range over every operation and every 16-bit size; tests look at a few sizes on either side of the limits", "anchors": ["smdiff-common/src/lib.rs: Op::bit_flag, is_add, is_run, is_copy, take_copy, oal, Size::size_overhead, size_routine", "smdiff-writer/src/lib.rs: write_op_byte_and_size", "smdiff-reader/src/lib.rs: read_op_byte"]}
{"id": "C120", "title": "What into_inner of the section iterators gives back (finding: the decoder's drops what it has read ahead)", "statement": "into_inner of smdiff-reader's section iterator gives the source exactly behind the sections given so far, after any number of calls. into_inner of smdiff-decoder's iterator gives back the reader it was made from, unchanged if there was no call; after any calls that succeed it stands between the end of the sections given and 8192 bytes behind it, and at its very end if at most 8192 bytes lay in front of it at the start; the sections given are those of the iterator over the bytes in front of the reader. That it stands behind the sections given is refuted: after the first of two sections the second can no longer be read from it.", "quantifier": "all bytes, all reader positions, all sequences of next_borrowed and next calls that succeed, build modes, and codecs that consume a prefix of their input", "why_tests_cant": "whether a later reader loses data depends on the length of what follows and on how far the buffer got; tests read a patch to the end and drop the iterator", "anchors": ["smdiff-decoder/src/reader.rs: SectionIterator::new, next_borrowed, next_owned, into_inner", "smdiff-reader/src/lib.rs: SectionIterator::next_borrowed, next_owned, into_inner"]}
{"id": "C121", "title": "Joining patches (finding: copies from the output have to be moved, and nothing notices if they are not)", "statement": "Two patches for the same source, made by any workflow of the tools, can be joined in exactly one way: the continuation flag of the last section of the first is set and the second is put behind it. Applied to the source the joined patch performs the operations of the second on top of the output of the first. If the second patch has no copies from its own output, the result is the two outputs one after the other, so a target may be encoded in pieces. That it always is, is refuted: with target matching the copies of the second patch take other bytes, and apply_patch reports success. Any patch written with the operations of both, the output addresses of the second increased by the length of the first output, makes the two outputs one after the other.", "quantifier": "all pairs of patches for one source made by any combination of encode, transcode, merge and VCDIFF conversion; any settings, formats, compressions and build modes; in the last part any sections the writer is given", "why_tests_cant": "which addresses are wrong after joining depends on the operations the encoder chose; tests encode a file in one piece", "anchors": ["smdiff-decoder/src/lib.rs: apply_patch", "smdiff-reader/src/lib.rs: read_section_header, read_ops_no_comp", "smdiff-writer/src/lib.rs: write_section_header"]}
