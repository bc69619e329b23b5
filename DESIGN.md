# Formal model of smdiff in Rocq (Coq 8.16.1)

## What is modelled

The model is a set of total, computable Gallina functions over `Z` and `list Z`, written function by function
from `/repo` (each definition cites file and lines). Numbers are mathematical integers; every place where the Rust
code can wrap, truncate (`as u16` ...) or overflow on data it does not control is written out explicitly.
Two build modes exist (`Debug`: overflow checks and `debug_assert!` on; `Release`: wrapping, no debug assertions) and
theorems quantify over the mode unless they say otherwise. Results are `Ok | Err kind | Panic | Diverge`:
`Panic` is any Rust panic (slice index, `unwrap`, `assert!`, overflow check), `Diverge` an infinite loop.

| model file | Rust source |
|---|---|
| `Base.v` | results, machine integers, slices, `Read` over a byte list, `Write` to a `Vec` |
| `MCommon.v` | `smdiff-common/src/lib.rs` |
| `MWriter.v` | `smdiff-writer/src/lib.rs` |
| `MReader.v` | `smdiff-reader/src/lib.rs` |
| `MDecoder.v` | `smdiff-decoder/src/{lib,reader}.rs` |
| `MHasher.v`, `MHashmap.v`, `MSrcMatcher.v`, `MTrgtMatcher.v`, `MEncInner.v`, `MOpMaker.v`, `MEncode.v`, `MLevels.v` | `smdiff-encoder/src/*` |
| `MIter.v` | `smdiff-reader/src/lib.rs`, `smdiff-decoder/src/{reader,lib}.rs`: operation buffers, the two section iterators, the loop of `apply_patch` |
| `MHeader.v` | `smdiff-common/src/lib.rs`: the header builder; headers with any field values |
| `MOpApi.v` | `smdiff-common/src/lib.rs`: the helper functions of operations |
| `MAlloc.v` | `smdiff-reader/src/lib.rs`: the memory `read_section` asks for |
| `MFault.v` | `smdiff-decoder/src/lib.rs`: `apply_patch`, `apply_ops` call by call, with one I/O call failing |
| `MWFault.v` | all writing functions (`smdiff-common`, `smdiff-writer`, `smdiff-encoder`, `smdiff-merger`, `smdiff-vcdiff`) over a writer that accepts only so many bytes; `section_writer` with its scratch buffer |
| `MStream.v` | the decoder over any `Read` (short and interrupted reads), `BufReader` over it; streaming decompressors |
| `MBroken.v` | the merger and the transcoder over any `Read`, also one that fails; the unwrapped zstd constructor |
| `MAfter.v` | the readers and both section iterators with the position of the source after an error |
| `MInPlace.v` | `apply_patch` with one file as source and sink |
| `M32.v` | the 32-bit constants of hasher.rs; hash table, source window and output position of the decoder with a 32-bit `usize` |
| `MInput.v` | `encode` with readers that fail, `section_writer` with compressors that fail; the builder functions of the configuration |
| `MFiles.v` | `encode`, `apply_patch` over any files (short reads and writes, interruptions, seeks) |
| `MPos.v` | `encode`, `apply_patch`, the decoder's reading functions over readers with a position and a `BufReader` |
| `MMerger.v`, `MTranscoder.v` | `smdiff-merger/src/{lib,transcoder}.rs` |
| `MVcdiff.v` | `smdiff-vcdiff/src/lib.rs` (the converter, given the instruction stream of the external reader) |

`Spec.v` is the small specification used in theorem statements (meaning of operations, LEB128 grammar, spec.md size
rules, limits), with `SpecEnc.v`, `SpecApi.v`, `SpecMerge.v`, `SpecVcd.v`, `SpecFmt.v`, `SpecAcc.v` and `SpecLit.v` for the encoder, the API, merging, VCDIFF, the format, what the reader accepts and the counting of literals; it does not mention the model's functions. Proofs are in `P*.v`; the property theorems, each
with `Print Assumptions` and a non-vacuity example, are in `T*.v`.

## Trusted base

* Coq's kernel (incl. `vm_compute`), the Coq standard library. No axioms are used: every `Print Assumptions` in
  `T*.v` prints "Closed under the global context" (re-checked at every build).
* The reading of the Rust source that the model embodies (the code was not run).
* `Read`/`Write`/`Seek` are modelled on `Cursor<Vec<u8>>`/`Vec<u8>`: a reader is the list of unread bytes, `read_exact`
  fails with `UnexpectedEof` if fewer bytes remain; writers do not fail (except in `MFault.v`, where any one I/O call of `apply_patch` may fail, and in `MWFault.v`, where every writer may; the zstd and brotli encoders are there modelled as one `write_all`). Readers stand at their start (except in `MPos.v`; its `BufReader` is over a reader that gives as much as it is asked for; in `MStream.v` over any reader). The
  reader position after an error is only in `MAfter.v` (after a failed `read_exact`: any end of the input, as the standard library does not specify it; after an error in a zstd or brotli section likewise). Memory exhaustion is not modelled; what the reader asks for is (`MAlloc.v`:
  `reserve(num_operations)` with an untrusted count can abort a real process, C92). `usize` is 64 bits, except in `M32.v` (C103, C104: hasher, hash table, source window and decoder position with 32 bits).
* zstd and brotli are oracles (a record of functions passed as argument); what is assumed of them is a hypothesis of
  the theorem that uses them. Their encoders are total functions, except in `MInput.v` (C109), where a call may fail or panic (`options.build().unwrap()`, writer.rs:33-45). The real decoders are lazy streams over the source; except in `MStream.v` the model reads a compressed section in one go
  (`zstd_open` is the unwrapped `StreamingDecoder::new`, whose error is a panic); it assumes that after all decompressed bytes of a section have been read the source stands right behind the compressed data.
  `comp_lossless` (`SpecApi.v`) asks nothing of a section without operations unless the target is empty: the real brotli decoder is not read from there and `into_inner` then fails (C95). `MStream.v` has the lazy decoders and
  that check; C95 assumes (`stream_rt`) that a decompressor that has delivered its last byte has seen the end of its data. For a brotli stream whose final bits arrive with a later refill of the `BufReader` this may not hold; `into_inner` then fails.
  On patches whose compressed sections contain more than their operations need, the two models differ (the lazy one leaves, or with brotli rejects, the excess).
* `MReader.v` models `read_ops_no_comp` with an empty operation buffer and `MDecoder.v` models `apply_patch` without the iterator object; `MIter.v` models
  the same code with the caller's buffer, the two iterators and their state, and C80/C81 prove that they agree. Calling an iterator again after
  it returned an error is in `MAfter.v` (C97); calling it again after a panic was caught has no theorem.
* Rust's `slice::binary_search_by` (used by `find_controlling_op`) is modelled by the textbook loop; its result is determined
  when exactly one element compares equal, which is the case in every use the theorems cover.
* The external crates `vcdiff-reader`/`vcdiff-common` are not modelled: the converter model starts from the instruction
  messages, and the meaning of these messages is in `SpecVcd.v`. The contract assumed of the messages (`vinst_ok`): a copy is `CopyS` when
  it lies in the source segment, `CopyT` when it lies in the target window so far (`inst_u_pos_start` = length of U), `CopyQ` when it starts in the
  window and runs past its end (`len_in_u - len_o` = what lies behind the start); `len_in_o = len_in_u` for the first two. A copy that starts in the
  segment and runs into the window is not covered.

Not modelled: the `smdiff-testing` crate (benchmarks), `println!` (also those in the VCDIFF converter), timing, allocation outside the reader, performance (but the rounds of one search are counted in C118).

## Plan per property (written before the proofs)

| id | modelled | how proved |
|---|---|---|
| C01-C05, C07 | `MCommon` bit operations on `Z` | bit lemmas (`lor` disjoint = `+`), induction on the LEB128 grammar |
| C06 | same | `_refuted` with concrete bytes, plus exact positive statement |
| C08-C14 | `MWriter`, `MReader` | round trips by induction over operation lists, generalised over last addresses and suffix; exact error characterisation |
| C15 | `make_sections` | induction with the accumulated group as invariant |
| C16, C21, C22 | reader/decoder | `_refuted` witnesses plus the exact behaviour for all inputs |
| C17 | `read_ops_no_comp` | induction over the read loop; release-mode counterexample built from the op encoding lemma |
| C18, C19 | reader, decoder | prefix lemma for every parser, lifted through the section loop |
| C20 | reader against the grammar of `Spec.v` | case analysis on the grammar |
| C23-C28 | `MDecoder`, cursor sink | refinement of `apply_ops` to the meaning of operations in `Spec.v`, invariant on sink/position |
| C29, C30 | decoder + `section_writer` | composition of round trips; codec contract as hypothesis |
| C31, C34-C37 | whole encoder | invariant "every candidate op is a verified match, sorted, increasing ends" over the encoder loop; tiling lemma for op making |
| C32, C40-C43 | encoder | `_refuted`: concrete inputs evaluated in the model by `vm_compute` |
| C33 | encoder | state invariant for all indices, table contents and the chain; termination measure |
| C38 | `MHasher` | ring identities modulo 2^64 / 2^32 |
| C39 | `MHashmap` | history invariant |
| C60 | op making | bookkeeping invariant on literal bytes |
| C44 | `MLevels` (`Ranger`, configuration levels) | arithmetic |
| C45-C54, C61 | `MMerger` (statements also use `SpecMerge`) | refinement to output bytes: a slice of ops denotes a slice of output; merging is an invariant over the chain |
| C55-C57, C62 | `MTranscoder` | joining/splitting preserve the list of literal bytes and copies, and applying depends on that list only; refutation for the empty patch and the documented optimisation |
| C58, C59 | `MVcdiff` | refinement against the instruction meaning; refutation with a long period |
| C63-C65 | writer, reader, encoder, decoder against the grammar of `SpecFmt.v` (written from spec.md 4/5) | induction over operations/sections: writer output is in the grammar; the reader inverts the grammar |
| C66 | every mode-dependent function of the model, in both modes | one simulation lemma per function (PMode.v): Debug panics or equals Release |
| C67, C68 | reader, decoder on arbitrary byte lists | no-panic and no-divergence lemmas per function; every operation read takes at least one byte and yields at most 65535 |
| C69-C72 | encoder with its index, match finding and clipping (`PFind.v`) | the first loop step finds the match at the start (the index always holds a block starting at 0); clipping in `translate_inner_ops` loses a bounded number of bytes, by induction over the candidates; with no index no candidate is a source match |
| C73-C76 | encoder, merger, transcoder, converter, decoder together (`TPipe.v`) | an inductive definition of workflows; induction over it with "good patch in every build" as invariant; the merger state rebuilt from the written patch is the one that wrote it; the conformance lemmas of the writer applied to each tool |
| C77, C78 | decoder on cut patches (`TTrunc.v`) | the reader consumes a prefix-free stream (streaming lemma over the apply loop); cuts of a stream of sections; contract assumed of zstd/brotli decoders: `codecs_cut` (cut-off data are not taken for complete), for the end-of-file kind `codecs_stream` |
| C79 | merger and transcoder on arbitrary bytes (`PMerge5.v`, `TUntrust.v`) | exact outcome of the slice, dereference and merge loops on operations that may be empty or out of range (conditions `out_fit`, `dict_fits`); invariant of every reachable merger by induction over merge histories; release builds (a debug build agrees or panics, C66) |
| C80, C81 | `MIter.v`: buffers, both section iterators, the loop of `apply_patch` over the iterator (`TIter.v`) | simulation between the buffer-level loops (index list of literals to fill) and the list-level model; induction over call histories |
| C82, C83 | `MFault.v`: `apply_patch` with a failing I/O call (`TFault.v`) | simulation against the fault-free model; invariant "the sink is an output over the old contents" |
| C84, C85 | `MWFault.v`: the writing functions with a writer that fails (`TWFault.v`) | every function commutes with `into_room` (writing is a prefix-closed monad); cut patches by C78 |
| C86 | `MPos.v`: readers with positions, `BufReader` (`TPos.v`) | simulation of the buffered decoder by the list-level one, function by function (`PPos.v`), with the invariant that buffer ++ rest is what is still to be read |
| C87 | (`TOff.v`) | simulation of the encoder loop over two dictionaries; invariant "no candidate is a target match" through both passes of the op maker |
| C88 | (`TMiss.v`) | invariant: the checksum at p is the right one minus (checksum of the start) * M^p, and every table and chain entry has it; 2-adic order of the multiplier; "no jump" from soundness of the candidates |
| C89 | (`TLazy.v`) | the loop with two lengths runs in lockstep, using that found matches have at least 4 and at most all of the target's bytes |
| C90 | (`TSize.v`) | greedy argument: against any other split, the loop is never a section behind, or level with a smaller load; a pair of neighbouring sections exceeds the section size |
| C91 | (`TSize.v`) | byte count of each writer step; number_len is 1 + log2 / 7; bounds by induction over operations and sections |
| C92 | `MAlloc.v`: the reader with a list of memory requests (`TAlloc.v`) | the results are those of MReader.v; induction over the operations read: a literal of n bytes costs at least n/21845 bytes |
| C93 | `MHeader.v`: the header builder (`THeader.v`) | the control byte is computed for all 256 algorithm values x format x flag; the numbers by the varint round trip and arithmetic modulo 2^32 |
| C94 | `MStream.v`: the decoder's code over a reader given by its `read` function, `BufReader` over it (`TStream.v`) | simulation, function by function: in a state that still has the bytes l to give, the code does what the list model does on l; `BufReader` preserves the reader contract |
| C95 | `MStream.v`: streaming decompressors, `into_inner` of brotli (`TStream.v`) | the reader simulation of C94 with a view that remembers whether the decompressor has been read from; then as C31. The contract of the decompressors (`stream_rt`) is a hypothesis |
| C96 | `MFiles.v`: `read_exact`, `write_all`, `read_to_end`, `seek` over any file; `apply_ops` call by call | induction on fuel for the loops; refinement of `apply_ops` with the file's contents as abstraction; C94 for the patch; C31 and C34 for the round trip |
| C97 | `MAfter.v`: all reading functions with the source after an error, both iterators (`TAfter.v`) | agreement with the readers without positions and 'only takes from the front', by combinators; induction over the calls; streaming lemma for cut patches |
| C98 | merger and summary writer as in C48-C53 (`TBig.v`) | size of the written sections as in C91; pieces of a slice are not longer than their operations, through deref, merge and expand; the patch is made by writing doubling copies |
| C99 | transcoder as in C54-C56 (`TSettle.v`) | on a settled list both joining passes are the identity; then the writer is the same function of the same operations; size as in C91/C98, literal bytes do not grow in the joining passes |
| C100 | decoder, merger and transcoder over any reader (`MBroken.v`, `TBroken.v`) | every reading function over the failing reader against the function over the bytes: same result and stable under appending, or the failure is reported; induction over sections; C77/C78 for patches made by the tools |
| C101 | apply_patch with one file as source and sink (`MInPlace.v`, `TInPlace.v`) | against the normal run, operation by operation: same lengths; the first copy that reads a changed byte differs and later writes never touch it again; in place a source copy is an output copy, so what a patch does is a function of its atoms (C55) |
| C102 | apply_patch as in C23 (`TWrong.v`) | the run on one source against the run on another: equal lengths, equal outputs exactly if all source copies give equal bytes; origins of the output bytes computed from the operations alone |
| C103 | hasher, hash table and source window with 32-bit arithmetic (`M32.v`, `T32Enc.v`) | the checksum as a polynomial modulo 2^32 with the 32-bit constants; the 32-bit table equals the 64-bit one in its 32-bit setting (C39); state of the matcher after building, then the product in the window computation always overflows |
| C104 | apply_patch with a 32-bit output position (`M32.v`, `T32.v`) | the two decoders step by step agree while the position fits; afterwards the wrapped position only rewrites what is there, so the output is bounded by the position of the wrapping section |
| C105 | exact answer of the search over the target index, for every history of entries and every state of the encoder; monotone in the settings; findings: hidden repeats, larger patch at a higher level | invariant relating table and chain to the list of entries (each link points to the next older entry of its bucket while it is within reach); the walk visits exactly the entries of the checksum; loop invariant of the encoder |
| C106 | source matcher (MSrcMatcher, MEncInner) | invariant of the main loop: the table holds the entries of the windows added so far, each word under its checksum, and the running checksum is that of the current nine bytes; hash_steps/hash_roll shown to index exactly the multiples of the step; specification `src_search` (TSrcSearch.v) |
| C107 | op making, main loop of the encoder (MOpMaker, MEncInner) | first pass of op making inverted case by case; loss bounded by induction over the candidates (PLoss.v); invariant of the main loop: the beginning of a maximal stretch is either ahead with an exact run counter, or covered up to the current position, or all but 3 bytes are covered by two candidates (PRuns.v); literals counted by `literals_in` (SpecLit.v) |
| C108 | source matcher, main loop, op making (MSrcMatcher, MEncInner, MOpMaker) | invariant of the main loop (PBlock.v): before the block; or inside it, covered up to some z with no held word visited since; or all but D + 7 (one candidate) or D (two candidates) bytes covered. A search at a held word finds the whole block (C106) unless a match that reaches further is already there. With the loss bound of C107; capacity by pigeonhole on the slots |
| C109 | `MInput.v`: readers with position and failure, compressors that fail (`TInput.v`) | relation "same or stopped at a compressor" carried through the writing functions; cut patches by C78 |
| C110 | `MInput.v`: the builder functions (`TInput.v`) | induction over the chain of calls; the encoder depends on the source configuration only through the matcher built from it |
| C111 | `MReader.v`; the accepted layout in `SpecAcc.v` (`PAcc.v`, `TAccept.v`) | both directions by induction over the operations and over the bytes of a number; 32-bit sums step by step; the literal bytes filled in afterwards |
| C112 | `MMerger.v`, `MDecoder.v` with operations of length 0 (`PMerge6.v`, `TEmpty.v`) | the invariants of C46-C51 weakened: a non-empty operation makes the bytes of the output at its place, an empty one is anywhere; the slice, dereferencing and merge loops preserve this; success from C79's exact conditions, which slicing preserves |
| C113 | `MMerger.v` against `SpecGraft.v` (slice, flatten, graft: structural recursion without positions or searches), `PGraft.v`, `TGraft.v` | get_exact_slice = slice on contiguous operations in place; the deref and merge loops fold it; slices commute with grafting, so grafting is associative; mutual induction over merge trees |
| C114 | `SpecGraft.v` (uses, amounts), `PCost.v`, `TCost.v` | from C113: literal bytes, uses of a byte and starts of operations are points of the output; what slicing makes counts the points in a window, and the sum over all copies counts each point as often as it is copied |
| C115 | `TProv.v` (with origins, reaches, agree from `TWrong.v`) | merging does not look at the source, so C49 holds for the chain on every source it applies to, which is a matter of lengths; provenance: apply both to a source whose bytes are numbers that tell their position |
| C116 | `TWindow.v` (on `TSrcSearch.v`, `TMiss.v`) | from C106's list of windows; the window is only recomputed on entering StartNewMatch, which happens after a match of lazy_escape_len bytes or at the end: invariants of the loop (one window only; nothing found yet) |
| C117 | as C91 (`PWeight.v`, `TWeight.v`) | invariant of the main loop: every match is at least 4 bytes long (but for one naive match); induction over the first pass: after cutting overlaps the matches are still 4 bytes long on average; closed cost per match, literal and run with k-byte addresses; the enlarged patch by evaluation at the ten levels |
| C118 | the search as in C105, given only a number of rounds of its loop (`search_rounds` in `TChain.v`) | induction over the rounds along the exact chain of C105; the count is the length of the shortest beginning of the entries filed that is `enough`, so fewer rounds run out and more give the answer; the bound for every search by the invariant of C105, the number of rounds by a measure that every round decreases; the refutation by a target of N words that share the checksum of another word, for every N | 
| C119 | `MOpApi.v`: the helper functions; writer and reader of the operation byte as in C09 | by cases over the three size classes; the byte's parts by evaluation for all 256 values | 
| C120 | `MInner.v`: the decoder's iterator over the BufReader of `MPos.v` | by induction over the calls, with the simulation between BufReader and byte list of C86 | 
| C121 | decoder and writer of C23/C24, `made` of C75; `joined` is a specification on bytes | by induction over the sections of the first patch: setting the flag changes only the flag of the header read; runs of operations move with the output | 

Nothing in the list is considered inexpressible. Performance and allocation outside the reader are outside the model; of the compression ratio only what C69-C72, C87, C88, C90 and C91 say is covered.
