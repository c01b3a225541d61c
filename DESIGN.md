# Formal model of deku in Rocq/Coq 8.16.1

The model is a set of total, executable Gallina functions that follow deku's
source function by function (`/repo`, version 0.20.3, cited by file and line at
every definition). Properties are stated in `properties.jsonl`; `MANIFEST.json`
maps each one to its theorems. `seeded/LOG.jsonl` records the wrong programs the
theorems were tested against.

Contents: 1 layout, 2 what is modelled, 3 what is not, 4 modelling choices,
5 trusted base, 6 per property, 7 findings.

## 1. Layout (`rocq/theories`)

Model (definitions only, each citing the lines it follows):

| file | models |
|---|---|
| `Base.v` | results and errors (`src/error.rs`), bit/byte conversions |
| `Stream.v` | the underlying `Read + Seek` / `Write + Seek`, `src/noseek.rs` |
| `Reader.v` | `src/reader.rs` |
| `Writer.v` | `src/writer.rs` |
| `Prims.v` | `src/impls/primitive.rs` |
| `Containers.v` | the other `src/impls/*.rs` |
| `Derive.v` | the code emitted by `deku-derive` (`DekuRead`, `DekuWrite`, `DekuSize`), as interpreters over a datatype of types with attributes; the container API |
| `Variants.v` | enums with `reader` and `writer` on variants, over `Derive.v` |
| `Slots.v` | the memory of an array while it is read (`src/impls/slice.rs`) |
| `Errors.v` | conversions of errors (`src/error.rs`) |
| `Target.v` | the impls and the derived code on a machine of either byte order (`src/ctx.rs`, `Endian::default`) |
| `Release.v` | the impls and the derived code in an optimised build (no debug assertions, wrapping arithmetic) |
| `Width.v` | the impls and the derived code on a target whose `usize` has another width |
| `Alloc.v` | the readers of `Containers.v` and `Derive.v` with the heap memory they ask for counted |
| `Chunks.v` | not code of deku: std's `read_exact` and `write_all` over `read` and `write`, and programs that call them |
| `Rec.v` | recursive types: a table of named types, calls bounded by the stack |
| `ByteBuild.v` | the build without the cargo feature `bits` |
| `BBV.v`, `BBVSession.v` | `BoundedBitVec` (`src/lib.rs`) at the level of its byte array and two indices; reader and writer over it |

Specification (what the theorems talk about; no proofs, independent of the
model's algorithms): `Spec.v` (bit strings of an input, a double-ended bit queue),
`Session.v`, `WSession.v` (sequences of API calls), `CodecSpec.v` (lawful codecs,
the binary encoding of integers), `ContainerSpec.v`, `DeriveSpec.v` (the format of
a derived type as one bit string, `encode`), `SizeSpec.v`, `BBVSpec.v`,
`AttrSpec.v`, `MoreSpec.v`, `SafeSpec.v`, `FlowSpec.v`, `CanonSpec.v`, `WSafeSpec.v`, `RecSpec.v`, `ByteSpec.v`, `NeedSpec.v`, `DeclSpec.v`, `PlainSpec.v`, `ErrSpec.v`,
`MsgSpec.v`, `HashSpec.v`, `OffsetSpec.v`, `InheritSpec.v`, `UpdateSpec.v`, `BitFieldSpec.v`, `TargetSpec.v`, `SugarSpec.v`, `NestSpec.v`, `VariantSpec.v`, `SlotSpec.v`, `AllocSpec.v`, `CompatSpec.v`, `UncheckedSpec.v`, `FailSpec.v`, `GrowSpec.v`, `FaultSpec.v`, `StrideSpec.v`, `CatchSpec.v`, `SpellSpec.v`, `MirrorSpec.v`, `AwaitSpec.v`, `PostSpec.v`, `CodeSpec.v` (classes of hand-written readers and writers), `ChunkSpec.v`, `PrefixSpec.v`, `RetypeSpec.v`, `SizeReadSpec.v`, `LimitSpec.v`, `PatchSpec.v`, `ReorderSpec.v`, `WidthSpec.v`, `RewordSpec.v`, `ExampleSpec.v` (the declarations in `examples/` and their formats).

Property theorems, and nothing else but the example types they mention:
`P_Reader.v` (C01-C10), `P_Writer.v` (C11-C17), `P_Prims.v` (C18-C24),
`P_Containers.v` (C25-C27, C36, C37, C40, C41), `P_Derive.v` (C28, C30, C33-C35), `P_Spell.v` (C28),
`P_Streams.v` (C29, C31, C38, C39), `P_Size.v` (C32), `P_Buffer.v` (C42),
`P_Attrs.v` (C43-C47), `P_More.v` (C48), `P_Safe.v` and `P_Stride.v` (C49), `P_Canon.v` and `P_Mirror.v` (C50), `P_Id.v` (C51),
`P_WSafe.v` (C52), `P_Rec.v` and `P_RecFlow.v` (C53), `P_Bytes.v` (C54), `P_Need.v` (C55), `P_Decl.v` (C56), `P_Plain.v` (C57), `P_Err.v` (C58), `P_Msgs.v` (C59, C60), `P_Hash.v` (C61), `P_Examples.v` (C62), `P_Offset.v` (C63), `P_Usual.v` (C64), `P_Variants.v` (C65), `P_Slots.v` (C66), `P_Errors.v` (C67), `P_Update.v` (C68), `P_BitFields.v` (C69), `P_Target.v` (C70), `P_Sugar.v` (C71), `P_Release.v` (C72), `P_Nest.v` (C73), `P_Alloc.v` (C74), `P_Compat.v` (C75), `P_Unchecked.v` (C76), `P_Fail.v` (C77), `P_Grow.v` (C78), `P_Fault.v` (C79), `P_Chunks.v` (C80), `P_Prefix.v` (C81), `P_Retype.v` (C82), `P_SizeRead.v` (C83), `P_Limits.v` (C84), `P_Patch.v` (C85), `P_Reorder.v` (C86), `P_Width.v` (C87), `P_Reword.v` (C88). Each is closed by `exact` or a computed
witness, followed by `Print Assumptions`, with a non-trivial `Example` beside it.

Tests of the model, not proofs: `V_Src.v` and `V_Derive.v` evaluate in the model the
repository's own tests, the first the unit tests in `src/`, the second those in
`tests/`. `V_Docs.v` does the same, as declarations, with the examples of the
documentation (`src/attributes.rs`, `src/lib.rs`) and of `examples/`. All give the result
the Rust code asserts. Left out are tests about compile errors, messages, features that
are off, and types of section 3.

All other files are lemmas.

## 2. Modelled, exactly

* `src/reader.rs`: the whole `Reader`: `end`, `seek`, `skip_bits`, `read_bits`,
  `read_bits_into`, `read_bytes`, `read_bytes_const`, the integer fast path
  `read_bits` to `u64`/`u128`, `rest`, `bits_read`; both bit orders; the leftover
  (none, peeked byte, up to 7 bits).
* `src/writer.rs`: the whole `Writer`: `write_bits`, `write_bits_order`, the
  integer fast paths, `write_bytes`, `seek`, `rest`, `finalize`, `bits_written`.
* `src/lib.rs`: `BoundedBitVec` twice: as a bounded list of bits inside the reader
  and writer models, and at array level (C42 proves the two equal);
  `to_bytes`, `to_slice`, `to_bits`.
* `src/noseek.rs`.
* `src/impls/primitive.rs`: `u8` to `u128`, `i8` to `i128`, `f32`/`f64` (as bit
  patterns), all contexts `()`, `Endian`, `BitSize`, `ByteSize`, `Order` and their
  combinations, read and write.
* `src/impls/`: bool, NonZero, Option, tuples, unit, arrays and slices, Vec, Box,
  Arc, Cow, CString, IP addresses, HashMap, HashSet (the last two as an association
  list with any iteration order).
* `deku-derive`, reading, writing and size of structs and enums with the attributes
  endian, bit_order, bits, bytes, magic, seek_*, ctx, ctx_default, count, bits_read,
  bytes_read, until, read_all, map, reader, writer, skip, cond, default, assert,
  assert_eq, pad_bits/bytes_before/after, temp, temp_value, update, id, id_type,
  id_endian, id_pat, discriminants, default variants, and `deku::bit_offset` /
  `deku::byte_offset` in expressions; `from_reader`, `from_bytes`, `TryFrom`,
  `deku_id`, `update`, `DekuSize`. Expressions in attributes are arbitrary Gallina
  functions of the context, the earlier fields and the offset, so theorems hold for
  every expression that does not have side effects. The argument of `bits` and
  `bytes` on a field is such an expression too.

## 3. Not modelled

* Parsing of attribute strings; compile errors of the Rust compiler in the generated
  code (name resolution, generics, lifetimes, `ctx` types). The macros' own checks and
  their choice between attributes are modelled (`Decl.v`, C56).
* `&[u8]`, `&str` as fields of derived types (the
  codecs themselves are modelled in `Containers.v`). `assert_eq` on a HashMap or
  HashSet field, and attribute expressions that iterate over one (the order is the
  hasher's).
* Error messages, logging, `no_std`, feature `alloc` off. (The build without the
  feature `bits` is modelled for derived types, C54.)
* Running out of memory; overflow of `usize` counters that count consumed or
  produced bits. Capacity requests above `isize::MAX` and `size * 8` overflow are
  modelled for Vec, and with the bound of Vec for HashMap/HashSet fields (a hash table
  is somewhat larger than a Vec; the exact bound is not modelled).
* Timing, allocation, and the machine code. Floating point values are their bit
  patterns.

## 4. Modelling choices

* Bytes are `Byte.byte`, so every input is a legal input; bits are `list bool`
  in the order `BitSlice<u8, Msb0>` iterates them.
* `&mut self` becomes state passing: every operation returns a result and the
  new state, also on errors.
* Results are `Ok v`, `Err e`, `Panic` or `Diverge`. `Panic` covers `assert!`,
  `debug_assert!`, out of range indexing, arithmetic underflow and too large
  shifts, i.e. the debug build is modelled (`Release.v` models the optimised one, see C72). `Diverge` is only produced when the
  explicit fuel of a `loop {}` runs out or, for recursive types, the explicit bound on
  nested calls is exceeded. C41 and C49 prove that the fuel does not run out if it is
  linear in the input, and C53 that more fuel changes no result, so the fuel is no
  bound on what the theorems cover.
* `usize`/`u64` counters (`bits_read`, positions) are unbounded; fixed-width
  integer arithmetic in the fast paths (`u8`, `u64`, `u128`) is written with
  explicit truncation. `usize` has 64 bits; other widths are in `Width.v` (C87).
* `Endian::default()` is the target's byte order; the model takes a little-endian
  target, except `Target.v`, which takes it as a parameter (C70).
* The stream model is a `Cursor` plus a fault oracle: the n-th I/O call fails
  with any error kind the oracle chooses, and a `read_exact` or `write_all` that
  fails has transferred as many of its bytes as the oracle says, but not all. A
  short `read_exact` may or may not consume the remaining bytes (a flag both ways
  of which are covered). With a NoSeek wrapper the position is kept as the wrapper
  keeps it. `Chunks.v` derives these answers from sources and sinks that implement
  `read` and `write` (C80).
* Readers that cannot be reached by the API are excluded by one predicate on the
  leftover (`valid`: 1 to 7 bits), which every operation preserves.

## 5. Trusted base

* Coq 8.16.1's kernel, and the `vm_compute` of that kernel in examples and
  witnesses. `coqchk` accepts the compiled files.
* `Print Assumptions` is run under every property theorem; **every one prints
  "Closed under the global context"**: no axiom, neither of the standard library nor
  of our own, is used by any theorem of this development.
* `coqchk -o` lists seven constants `Coq.ssr.ssrunder.Under_rel.*` (and nothing
  else) in the context of loaded libraries. They are the fields of a module type of the
  standard library that `lia` loads; no theorem depends on them.
* No `Axiom`, `Parameter`, `Admitted`, `admit`, functor, module type, plugin or
  disabled check occurs in the sources; `Variable` only inside sections.
* The reading of the Rust source: nothing is extracted from it or run. The
  semantics of `bitvec`, `core::num`, `std::io::Cursor` and `Vec` as written in
  `Base.v`, `Stream.v` and `Containers.v`.
* The specifications listed in section 1, and that they say what the English says.

## 6. Per property

"Partial" means that the statement in `properties.jsonl` is not true of the code (or
not proved) in full: the theorems named `_partial` give the conditions under which it
holds, those named `_refuted` the witnesses against the rest.

* **C01 Msb0 reads follow the input bit string** (proved; 1 theorems). Abstraction from a reader to its remaining bits; one refinement lemma per operation (ReaderOps), induction over the call sequence (SessionFacts). Every successful session of Msb0 calls, from every reachable reader state over a source that does not fail.
* **C02 Lsb0 reads follow the least-significant-first bit string** (proved; 1 theorems). As C01 with the least-significant-first bit string. Same as C01 for Lsb0.
* **C03 Mixed bit orders consume each input bit exactly once** (proved; 2 theorems). Refinement to the double-ended bit queue of Spec.v; conservation by induction over calls. Refinement to the double-ended bit queue of Spec.v and conservation of bits, orders mixed freely.
* **C04 The integer read fast path is observationally the generic path** (proved; 1 theorems). Both implementations compute the same number of the same bits (FastRead: shifts and masks as binary expansions). Full equality of value and final state with the generic bit read, 1 to 64 bits.
* **C05 bits_read is exact** (proved; 1 theorems). Invariant on bits_read, source position and leftover, for every fault pattern. On every source, also failing ones, and for callers that carry on after errors.
* **C06 Short input is reported as Incomplete and never as a value** (partial; 2 theorems, 1 of them refutations). Exact success condition of each operation, from the refinement lemmas. Proved except for byte reads of length zero, which panic after end(): C06_zero_byte_read_refuted.
* **C07 Appending input never changes a successful read** (proved; 1 theorems). Simulation between the input and its extension. Sessions of reads of supported sizes.
* **C08 end() is transparent** (partial; 4 theorems, 2 of them refutations). The state after end() is related to the state before; the relation is preserved by reads. Proved for every continuation of reads; false for skips and zero-byte reads after end().
* **C09 Skipping n bits equals reading and discarding n bits** (partial; 7 theorems, 5 of them refutations). skip_bits_spec against reads; witnesses for the failing cases. Proved for seekable sources read from position 0 without a peeked byte, and for short skips everywhere; false past the end of input, with a peeked byte, on NoSeek sources, on sources already advanced, and after a failed read.
* **C10 A failing source is never turned into data** (partial; 4 theorems, 2 of them refutations). Fault oracle split at the first failing call (FaultFacts). Fault-free behaviour is unaffected and integer reads, aligned byte reads and sub-byte reads report every fault; bit reads of whole bytes and end() turn faults into zeros (refuted).
* **C11 Msb0 writes are concatenated** (proved; 1 theorems). Abstraction from a writer to the bits written; induction over writes. Any sequence of Msb0 bit writes, byte writes and integer writes, from any reachable writer with Msb0 pending order and a sink that accepts everything.
* **C12 Lsb0 writes are concatenated least-significant-first** (partial; 2 theorems, 1 of them refutations). As C11. Proved when the pending order is Lsb0 or the first write has at most 8 bits; refuted for a longer first Lsb0 write on a fresh writer (bytes come out in the wrong order).
* **C13 The writer never panics and conserves bits** (proved; 2 theorems, 1 of them refutations). Invariant: pending bits fewer than 8; bits_written counts. For sinks that accept everything. A refutation shows that a caller carrying on after an I/O error can hit a panic.
* **C14 The integer write fast path is observationally the generic path** (proved; 1 theorems). Equality of stored bytes and pending bits, chunk by chunk. Same bytes, position, pending bits, order and bits_written; the number of I/O calls differs by design.
* **C15 finalize pads with zeros to a whole byte and nothing else** (proved; 1 theorems). Computation on the pending bits. 
* **C16 What is written in one bit order is read back** (partial; 3 theorems, 1 of them refutations). Composition of the writer and reader refinements. Msb0 proved in full (bits, bytes, integers); Lsb0 proved when the first write has at most 8 bits, refuted otherwise.
* **C17 Mixed-order round trip** (partial; 2 theorems, 1 of them refutations). `fits` describes the schedules whose bits end up where the reader looks; induction over the schedule. Proved for the schedules accepted by [fits]; refuted in general.
* **C18 Unsigned integers round-trip at every bit width** (partial; 3 theorems). The bits written are those of the binary expansion (CodecSpec); reading inverts it at every alignment. Exact encoding and round trip at every alignment, canonicity and whole sequences of fields, for every unsigned type, byte order, bit order and size, except big-endian Lsb0 with 8 < n < width, which is false (C23).
* **C19 The bit-size range check is exact** (partial; 2 theorems, 1 of them refutations). Exact result of every context. Exact for every n >= 1 and every writer state with a sink that accepts everything; zero bits in big-endian Msb0 order panic (refuted).
* **C20 Signed integers with a bit size: exact range and sign-preserving round trip** (partial; 4 theorems, 1 of them refutations). Two's complement as modular arithmetic. Exact range and round trip with an endian; without endian proved for sizes that are not a multiple of 8, refuted for bits = 16 (no sign extension).
* **C21 Signed integers keep their meaning under an explicit bit_order and under byte sizes** (partial; 4 theorems, 3 of them refutations). As C20, with witnesses. Proved for values in [0, 2^(n-1)) and for full-width sizes; refuted for negatives (rejected), for values in [2^(n-1), 2^n) (come back negative) and for byte sizes (no sign extension).
* **C22 Byte-sized integers never silently lose value bits** (partial; 5 theorems, 2 of them refutations). The value read back is the value modulo 2^(8n). Round trip for values below 2^(8n); for all values the result is the value modulo 2^(8n), so the property is refuted; also refuted for Lsb0 inside a byte.
* **C23 Big-endian Lsb0 fields round-trip** (partial; 4 theorems, 3 of them refutations). Case analysis on n against 8 and the width. Proved for n <= 8 and n = width; refuted in between, for writes (low byte lost, not injective) and reads (value out of range).
* **C24 Reading an oversize field is rejected before consuming input** (proved; 3 theorems, 1 of them refutations). Computation of the first step of every context. Every multi-byte type and context, every reader state. u8, which the property excludes, is covered for the contexts that check; the others are shown to read one byte silently.
* **C25 Vec count reads exactly count elements and round-trips** (partial; 7 theorems, 2 of them refutations). Induction over elements of an abstract lawful codec. Exact result, exact failure and round trip for every element that does not move bits_read back; false for zero-sized elements (count ignored) and for elements that seek (panic).
* **C26 Vec until/bits_read/bytes_read/read_all stop exactly where documented** (partial; 6 theorems, 1 of them refutations). Characterisation of the loop by the sequence of element reads. Exact characterisation of success and failure for all limits, and round trips; elements must not move bits_read back. A bit or byte limit that falls inside an element is passed over (refuted).
* **C27 The bulk Vec<u8> count path agrees with element-wise reading** (partial; 5 theorems, 4 of them refutations). Both paths against the input bit string. Equal in Lsb0 at every alignment and in Msb0 at byte boundaries, on seekable sources without a peeked byte; refuted for misaligned Msb0 (also the round trip), after end() and on NoSeek sources.
* **C28 Derived structs and enums round-trip** (partial; 7 theorems, 4 of them refutations). `encode` gives the format; mutual induction over types, fields and variants (DeriveSound). Hand-written types: SpellSpec.v gives the readers and writers of a format as an inductive class; induction over the class. Round trip of every derive type whose format specification (encode_ty) accepts the value; the four refuted theorems show where it is false of the code: cond with a default, counted Vec<u8> inside a byte, pattern variants with a context id, stored ids with a container endianness. Hand-written types that follow a format step by step are lawful (C28_by_hand).
* **C29 from_bytes returns exactly the unread remainder** (partial; 6 theorems, 4 of them refutations). Place.v: where a read leaves the reader; induction over derived types. The rest and offset returned are exact for every type; chaining equals one reader for first types read in whole bytes or in Msb0 order, with seeks and hand-written readers. Nothing missing but what is false: Lsb0 parts of a byte (C29_lsb_refuted), counted Vec<u8> that starts inside a byte (C29_vec_inside_refuted), a second type that seeks (C29_seek_refuted), a first type whose hand-written reader asks end() (C29_end_refuted).
* **C30 TryFrom accepts exactly the inputs that are consumed to the last byte** (partial; 4 theorems, 1 of them refutations). From C29. Accepts exactly when the first read succeeds and leaves no whole byte; refuted when the last byte is only partly consumed.
* **C31 to_bytes, to_slice and to_bits agree** (partial; 3 theorems, 1 of them refutations). Simulation between a growing sink and a fixed buffer (SinkSim). For every type and value without seek attributes, every buffer. False with seek attributes (C31_seek_refuted).
* **C32 SIZE_BITS equals the number of bits written** (partial; 12 theorems, 5 of them refutations). Mutual induction over types against `encode` lengths. Hand-written writers are an inductive class of programs (`gives`), each step with the number of bits it writes. Exact for structs without enums, an upper bound with enums, exact per variant, with hand-written writers that give the size of their field (gives). False with temp, skip, sizes on tuples, bytes on u8 and other hand-written writers (refuted theorems).
* **C33 Enum dispatch takes the first matching variant and ids survive a round trip** (proved; 5 theorems, 1 of them refutations). Induction over variants. First matching variant, else the default; uniqueness of the choice; the error when none; refutation of reading back an overlapped variant beside it.
* **C34 Magic and padding are enforced and symmetric** (partial; 10 theorems, 2 of them refutations). Computation, for every alignment. Magic: exact on reading, required by containers, written whole outside the middle of an Lsb0 byte. Padding: zero bits written, any bits skipped on a seekable source or below a byte. Refutations for the remaining cases.
* **C35 Assertions guard both directions** (partial; 5 theorems, 1 of them refutations). Induction over fields. Structs and enums on reading and writing; refuted on writing for the first field of a pattern variant whose id comes from the context.
* **C36 bool, NonZero, Option, tuple, array, CString and IP codecs are lawful** (partial; 17 theorems, 1 of them refutations). One lemma per codec: lawfulness closed under the constructors. All codecs lawful at every alignment, rejections exact; a bare Option None is written as nothing and cannot be read back (refuted).
* **C37 HashMap and HashSet read back the written collection** (proved; 3 theorems). Induction over the iteration order. Any iteration order, any lawful key and value codecs, counts up to isize::MAX.
* **C38 NoSeek is transparent for streams that do not seek** (partial; 10 theorems, 4 of them refutations). Simulation between the stream and the wrapped stream (SourceSim), closed under derived types. Every sequence of calls, and every derived type without pads of a byte or more and counted Vec<u8>; those fail on NoSeek (refuted). The reported position is wrong after a failed partial transfer (refuted).
* **C39 Seeking repositions the stream and resets buffered bits** (partial; 7 theorems, 3 of them refutations). Computation on the state after a seek; induction for derived types. Reader: proved for every state and target; a seek that fails drops the buffered bits (C39_failed_refuted). Writer: what is stored after the seek is proved; pending bits are lost silently (refuted).
* **C40 Field limits on untrusted counts fail cleanly** (partial; 6 theorems, 4 of them refutations). Exact result of read_exact_vec. Proved inside seekable sources without a peeked byte for counts below 2^61; refuted for larger counts, past the end, after end(), and for the capacity of other element types.
* **C41 Reading integers and collections never panics or hangs** (partial; 8 theorems, 3 of them refutations). Safety invariants closed under all codecs (Safety.v); termination by unread bits. Integers of every type, context and alignment; vectors of any safe element that does not seek, with all limits; termination of loops on sources that do not fail. Refuted for zero-bit integers, for read_all of elements that consume nothing, and for sources whose I/O calls keep failing.
* **C42 Buffered bits are exact: stale bits of the internal buffer never leak** (proved; 5 theorems). Refinement: array, offset and length to a list of bits; stale bits are universally quantified. The array level of BoundedBitVec refines the bounded list used by the rest of the model; reader and writer call histories agree. Capacity is a parameter (the code uses 8*8 and 8*16 bits).
* **C43 Field attributes select the wire layout** (partial; 5 theorems, 1 of them refutations). Layout from `encode`; inheritance by rewriting of arguments. Layout of structs of integer fields and of enum ids, at every alignment, when one bit order is used inside bytes; inheritance as full equality of reading and writing for every derived type. Not covered: layouts that mix bit orders inside a byte, where it is false in general (C43_two_orders_refuted, C17).
* **C44 Contexts reach exactly the field they are given to** (proved; 6 theorems). Equality of executions. Full equality of executions for the default and for given arguments, structs and enums; arguments of a field after any prefix of fields without temp. The statements about a field assume no container endian or bit_order, which C43_inherited reduces to.
* **C45 Temporary fields are read like others, dropped, and rewritten from temp_value** (proved; 2 theorems). Equality of executions. Full equality of executions on every stream. For writing, fields without a hand-written writer.
* **C46 update sets exactly the fields that ask for it** (proved; 5 theorems). Computation; C28 for the round trip. Exact effect for structs and enums, exact failure, idempotence, and the round trip of length-prefixed vectors.
* **C47 The limit attributes of derived fields mean what they say** (proved; 2 theorems). C25/C26 at a field after any prefix of fields. Any prefix of fields, all five limits, elements of any derived type that does not move bits_read back; the literal Vec<u8> with count is C27.
* **C48 More input never changes a decided read** (proved; 9 theorems, 4 of them refutations). Simulation between an input and its extension, closed under derived types (DeriveClosed). Hand-written readers: AwaitSpec.v gives them as an inductive class of programs; induction over the class. Through derive, at from_bytes level and for a reader in any state on any source; the two exceptions of the statement are refuted by witnesses. Hand-written readers that use the methods of Reader and return at the first error meet the condition (C48_by_hand); one that calls end() or catches Incomplete does not (C48_end_call_refuted, C48_catch_refuted).
* **C49 Untrusted input never panics or hangs, and gives a value of the type** (partial; 13 theorems, 5 of them refutations). `moves i j`: an invariant (place, typed values, progress) from one knowledge of the place to the next, closed under all building blocks; mutual induction over types. Hand-written readers: StrideSpec.v gives them as an inductive class of programs with the knowledge of the place before and after; induction over the class. Readers that catch errors: CatchSpec.v, likewise, by the invariant that 1 to 7 bits are buffered, a peeked byte, or nothing. Types satisfying flow_type only: a condition on the attributes as evaluated on all values of the earlier fields, followed from field to field (where the source is known not to be past its end). safe_type, simpler, implies it. Four kinds of type violating it are refuted by witnesses. Failing sources are C79. Hand-written readers that use the methods of Reader (seeks and skips included) and return at the first error meet the condition (C49_by_hand). Ones that catch errors and go on do not panic either (C49_catching), unless they skip a byte or more after a seek that failed (C49_skip_after_error_refuted).
* **C50 Whatever was read is written back bit for bit** (partial; 14 theorems, 8 of them refutations). `faithful`: a reader and a writer such that what the first consumes the second emits, at the same position; closed under all building blocks, mutual induction over types. For integers: every bit string of the size is the encoding of a value, and C28 decides what is read from it. Hand-written types: MirrorSpec.v gives pairs of a reader and a writer as an inductive class; induction over the class. For types satisfying rewritable_type, a condition on the attributes as evaluated on all values of the earlier fields. Each excluded feature is refuted by a witness. Hand-written readers and writers that mirror each other step by step meet the condition (C50_by_hand).
* **C51 deku_id is the id on the wire** (partial; 6 theorems, 2 of them refutations). Induction over the variants; reading by C33 (`dispatch_inv`), writing by unfolding to the selected variant. A default variant with an id, and variants with only a discriminant, are refuted.
* **C52 Writing never panics** (partial; 11 theorems, 4 of them refutations). Weakest preconditions for the writer monad with an arbitrary sink (every call may fail), the invariant being fewer than 8 pending bits; all four bit-order combinations; mutual induction over types, fields and variants. Hand-written writers: PostSpec.v gives them as an inductive class of programs; induction over the class. For types satisfying wsafe_type (no size of 0 bits, no seek whose offset does not convert, ids storable). Both exclusions are refuted by witnesses. Hand-written writers that use the methods of Writer and return at the first error meet the condition (C52_by_hand); one that goes on after an error does not (C52_after_error_refuted).
* **C53 Recursive types** (partial; 20 theorems, 3 of them refutations). `unroll`: the named types with room for `depth` nested calls. Formats and canonicity by induction on the depth; results are monotone in fuel and depth (`refines`, closed under all building blocks); termination by induction on the unread bits, cutting the recursion off where it cannot be reached (`guarded`). `nested d k v`: the value is of its Rust type at every level, at most `d` deep; read values are, by the safety theorem of C49 with the inner types cut off where they do not return; such values are written by induction on `d` with the theorem of C52. `rec_flows` is the same with the places of C49 (`RecFlow.v`). Round trip and canonical form for the formats and types of C28 and C50; termination for types satisfying rec_safe or, with byte padding before byte vectors, rec_flows, writing for types satisfying rec_wsafe (as C49 and C52). Three kinds of stack exhaustion or endless nesting are refuted by witnesses.
* **C54 The build without the feature `bits` agrees** (partial; 12 theorems, 6 of them refutations). `ByteBuild.v` models what the feature changes (padding, bit sizes, offsets, finalize). Simulation between the two builds by induction over types (`ByteWrite.v`, `ByteRead.v`); reading needs the invariant that nothing but a peeked byte is buffered and that a successful read that skipped past the end stays past the end. Hand-written code is an inductive class of programs over the calls both builds offer; the simulations go through it by induction. Writing proved for every type, hand-written writers included (writes_bytes: any code over write_bytes, integers and seeks); reading for types without seeks and without padding inside read_all, hand-written readers included (reads_bytes). Refuted: padding cut off at the end of a reader, the error for it, padding of read_all elements, padding followed by a seek back, padding on sources without seek, bit offsets.
* **C55 The size in Incomplete can be relied on to wait for more input** (proved; 10 theorems, 3 of them refutations). Positivity: closure induction over the derived reader (DeriveClosed.v, generalised so that the property need not hold of arbitrary results) with all reader primitives, loops, seeks and Vec<u8> in NeedFacts.v. Enough: from the specification of single reads (SessionFacts.v). Loop: induction on the tries with C48 and C49. Hand-written readers: induction over the class of AwaitSpec.v. The loop theorem is for types that never panic (C49) and do not depend on where the input ends (C48); refutations for the stronger readings of the size: it is that of the read that failed, not what is missing (documented as 'Number of bits needed to retry parsing'), and it leaves out padding. Hand-written readers that return at the first error meet the condition (C55_by_hand).
* **C56 The derive macros accept exactly the consistent declarations and ignore nothing** (partial; 18 theorems, 4 of them refutations). Decl.v models the attribute records, the checks and the choice between attributes as a function from declarations to the types of Derive.v (or a compile error); DeclSpec.v states the rules as propositions. The checks are turned into conjunctions and compared with the rules one by one; the rest follows by induction over the members and variants. Acceptance, agreement of the macros, seeks, padding and ids are proved in full. False and refuted: `until` beside another limit, several seeks on a struct, seeks on an enum, and without `bits` also `read_all` beside another limit are accepted and ignored; `bits` on a counted Vec<u8> is ignored on reading only.
* **C57 Everything at once for plain declarations: a format, its exact inverse, and no panics** (proved; 16 theorems, 1 of them refutations). PlainSpec.v: a syntax of declarations, its translation to Decl.v, the conditions as a boolean function, the fitting values as a boolean function, and the format as a function that shares nothing with the reader or writer. PlainFacts.v shows that the format is that of `encode` (C28), PlainSafe.v that the conditions of C49, C50, C52, C48 and C55 hold, PlainRead.v that whatever is read fits; all by induction over the declaration. PlainProps.v combines them. PlainPad.v does the same with padding: every accepted reading consumes bits that agree with the shape of the value (the format with holes), and every such input is accepted. PlainOut.v: what writing gives for any value of the type, and the errors, from C58. In contrast to C28, C49, C50, C52 and C55, whose conditions on types are propositions about attribute functions, the conditions here are one boolean function of the declaration. With padding the accepted inputs are those of a shape (the format with the bits of padding left open, C57_padded_*); that the format itself does not suffice there is shown by a refutation.
* **C58 Every error has a cause a user can point at** (proved; 10 theorems). ErrSpec.v: `has`, which searches a type for a field or a nested type with a property, and the causes as one table for reading and one for writing. ErrRead.v and ErrWrite.v: a calculus of operations whose errors are accounted for, with the numbers of the I/O calls made so that a reported error is tied to its call; induction over the type. Hand-written readers, writers and impls return what they like and are excluded. from_reader with an offset of 8 bits or more makes a seek of its own, which a source that cannot seek refuses; the theorem asks for an offset below 8 or a source that can seek.
* **C59 Messages can be read one after another from one source** (partial; 10 theorems, 5 of them refutations). MsgSpec.v: where the source stands, sequences of calls. Msgs.v: an invariant that ties bits_read and the buffered bits to the position relative to the start; a simulation (SourceSim.v) between the source and a new one with the bytes from the position on, and one between a reader and a new reader on the same source; with C28 the reception of what was sent. Hand-written readers: any that read and stop at an error; false for those that call end() (C59_peek_refuted). Seeks only from the start of a source; elsewhere false (C59_seek_refuted). False with pads of a byte and more on a source that is not at its start: they are skipped with a seek, which sets the count of bits to the absolute position (C59_padding_count_refuted), so that a Vec with bytes_read ends early without an error (C59_padding_value_refuted). Bits left in the last byte are dropped (C59_bits_refuted).
* **C60 Values can be written one after another to one sink, and read back** (partial; 4 theorems, 1 of them refutations). MsgSpec.v: sending, where the bytes are stored. MsgsOut.v: a simulation (SinkSim.v) between a Vec and the sink, whose contents are those of the Vec laid over the old contents at the old position; with C59 the reading back. Missing: seek attributes, where it is false (C60_seek_refuted: the second value replaces the first), and hand-written writers that seek. For sinks that fail see C77.
* **C61 HashMap and HashSet fields keep the last entry for each key and round-trip in any iteration order** (partial; 6 theorems, 3 of them refutations). Derive.v: HashMap and HashSet are kinds of TVec, so C28 to C60 hold of types with such fields as well. HashSpec.v: what a collection holds after insertions. HashProps.v: induction over the insertions; entries that encode alike at every position encode with the same total length in every order. False: a count read from the input counts duplicate keys too, so what is read from an input with duplicates is written as bytes that cannot be read (C61_duplicates_refuted); zero-sized entries with read_all are read for ever (C61_zero_sized_refuted). Entries whose format depends on where they stand (deku::bit_offset) do not survive another order (C61_offset_refuted); the round trip is for all others.
* **C62 The declarations in examples/ implement the formats they stand for, on every input** (proved; 14 theorems). ExampleSpec.v: the declarations and, independently, the formats as arithmetic on the input's bytes. ExampleProps.v: long inputs by the encoding of each field (C28), short ones from completeness of a longer input (C48, C49), the read_all loop by induction on pairs. The declarations go through the model of the derive macros (Decl.v). Not covered: examples/many.rs (a Vec read with an explicit Limit, C25) and examples/deku_input.rs (a user-defined Read).
* **C63 deku::bit_offset and deku::byte_offset are the position of the field** (partial; 10 theorems, 3 of them refutations). OffsetSpec.v: the attributes with a constant for the offset, and a () field with only the seek, magic and padding of a field. OffsetProps.v: reading a field splits into what comes before the offset is taken and what follows; induction over the fields before it. Writing uses that a writer's bit count is the bytes it handed out (derived_appends, C29). On writing false inside a byte: the bits pending in the writer are not counted (C63_write_refuted), so the offset is rounded down to whole bytes (C63_output); after a seek neither offset is the position in the output (C63_write_seek_refuted). Reading is proved; the struct in the documentation of deku::byte_offset takes the offset as relative to the struct, which holds only at the start of the input (C63_nested_refuted).
* **C64 Byte orders of containers and contexts, byte padding and discriminants mean what is spelled out** (proved; 7 theorems). InheritSpec.v: a syntax of such declarations, its translation to Decl.v, and resolve, the declaration of C57 in which everything is spelled out. InheritFacts.v: reading and writing the two derived types are equal functions of the reader and writer state, by induction over the declaration with the byte order from outside as an argument; then the theorems of C57 apply. Byte orders are handed on as deku asks for it: a byte order at a field or its container reaches a nested struct or enum only through ctx, which must then be declared there (Rust rejects anything else; handed). A variable in an endian attribute is the first argument of ctx. Left out: a byte order handed to a pair of a number and a struct or enum; a CString takes no byte order (Rust rejects it).
* **C65 Readers and writers on variants are used in place of the body, and of the id on writing** (partial; 8 theorems, 2 of them refutations). Variants.v: the generated code with the readers and writers as functions; the enum becomes a type with known impls, which may be a part of any type. VariantProps.v: the dispatch lemmas of C34 and encode_sound of C28, with the body of a variant replaced; for the round trip the enum follows its format, so C28 applies to every type around it. False as stated for deku_id, which is IdVariantNotFound for a variant with a reader (C65_deku_id, C65_deku_id_refuted). That reader and writer are inverse to each other is not enough (C65_inverse_refuted): the writer has to write the id, the reader starts behind it. Everything else is proved in full.
* **C66 Reading an array is memory safe and drops what it has read on an error** (proved; 2 theorems). Slots.v: the array of MaybeUninit slots, with assume_init_drop and the final read undefined on slots that are not initialised. SlotProps.v: induction over the loop, invariant: exactly the first n slots are initialised, with the elements read; and the result is that of read_array, the list model used elsewhere. The destructors of T are assumed not to panic. If the reader of an element panics, the elements before it are leaked, which Rust counts as safe; the theorem says so.
* **C67 Errors keep their meaning as std::io::Error** (partial; 9 theorems, 2 of them refutations). Errors.v: the From impls. ErrorProps.v: the causes of errors of C58, case by case. Proved for the kinds, the wrapping and byte_size. An error is its own cause, so that a walk along cause() does not end (C67_cause_refuted), and the conversion back from io::Error keeps the kind only (C67_wrapped, C67_there_and_back_refuted).
* **C68 update makes a value consistent, so that it is received as it was sent** (partial; 7 theorems, 1 of them refutations). UpdateSpec.v: the declarations of C57 with an update at every count; the specification (but_counts, counts_right) compares values position by position and mentions neither update nor its order of evaluation. UpdateFacts.v: C46 gives what update does field by field; a count of a plain declaration is an integer before the Vec it counts and no Vec is a count, so that the order does not matter; reading and writing by induction over the fields. Proved for the counts of the struct or enum itself. update does not reach the structs it is made of (C68_nested_refuted).
* **C69 Bit fields are cut from one number** (proved; 9 theorems). BitFieldSpec.v: the number of the bytes, and fields cut from it by division and remainder. BitFields.v: the bit string of C43 is the number written in binary, turned round for Lsb0; induction over the fields. Short inputs: filled up they are read, and what a read consumes lies inside the input (C49, C59). Refusals: the first field that does not fit, by the exact check of C19. With bit_order = "lsb" a field without bits must begin at a byte boundary. Signed fields only without bits. C69_default_neither: with neither attribute (little-endian and Msb0) no such number exists.
* **C70 The byte order of the machine matters only where none is given** (proved; 11 theorems, 2 of them refutations). Target.v: the model with Endian::default() as a parameter; on a little-endian machine it is the model of the other theorems (C70_little). TargetSpec.v: which numbers have a byte order, and the declaration with the order filled in. TargetRead.v, TargetWrite.v: a relation between readers (writers) that is kept by every construct, by induction over the type, used three times. A number of whole bytes without byte order is read through the byte path and with one through the bit path: TargetPlain.v shows that the two agree, errors included, if no byte is held back from an end check. i8 counts as a single byte only without a bit order. Hand-written readers use the reader's API and are themselves the same on all machines. The second part leaves out pairs of a number and a struct or enum, to which no byte order can be given. C70_machine_dependent_refuted: without byte orders the two machines differ. C70_stored_id_refuted: an enum with endian = "little" whose id is stored by id_pat still depends on the machine (finding 25).
* **C71 The attributes endian, bits, bytes and bit_order are shorthand for ctx** (partial; 9 theorems, 3 of them refutations). SugarSpec.v: the rewriting on types and on declarations. Sugar.v: reading and writing of a field depend on the four attributes only through the arguments and the bit order of padding; then induction over types, fields and variants. C71_written_out shows that the rewriting leaves none of the attributes. Partial because the full statement is false in three places, each with a witness: DekuSize does not look at ctx (C71_size_refuted, finding 49), padding follows bit_order and not ctx (C71_padding_refuted), and a stored id is written without the byte order of the enum (C71_stored_id_refuted, finding 25). The theorems exclude exactly padding together with a bit order, a stored id that inherits its byte order, and an enum with a bit order, which no attribute of the id can replace. The first field of an id_pat variant keeps its attributes, since it can have none.
* **C72 An optimised build does the same wherever the debug build does not panic** (proved; 19 theorems, 5 of them refutations). Release.v: the model of an optimised build, as Reader.v, Writer.v, Prims.v, Containers.v and Derive.v without debug assertions, with wrapping subtraction and multiplication of usize and shifts modulo the width. ReleaseFacts.v: the relation 'the first panics or both do the same' is kept by every construct; then induction over types, fields and variants. ReleaseProps.v carries C49 and C57 over. The theorems named _refuted show that where the debug build does panic the optimised one may succeed or loop for ever, so that 'no input is accepted that the debug build refuses' is false: a length of 2^61 for bytes_read, taken from the input, is accepted as 0 (C72_bytes_read_wraps gives the rule, finding 50); a field of no bits is read as 0 or written as nothing; a vector of elements that seek back never ends. Hand-written impls and expressions in attributes are taken to do the same in both builds.
* **C73 A nested struct, tuple or array is its parts written as fields** (proved; 7 theorems, 2 of them refutations). NestSpec.v: what the variables of an expression stand for after the move (scope, moved), the values of the parts as one value (group). NestFacts.v: a moved field does in its new place what it did in the old one; then induction over the fields before, the parts and the fields after. NestProps.v: the API, sizes, structs with one field. The nested struct has no magic and no seek of its own, and it and the fields before it have no temp fields; the outer struct has no endian or bit_order of its own (they go to its direct fields only). C73_update_refuted: update stops at the nested struct and so is not covered (finding 48). C73_size_refuted: with bits on a tuple DekuSize counts the size once (finding 29).
* **C74 Memory asked for while reading is bounded** (partial; 5 theorems, 2 of them refutations). Alloc.v repeats the readers with a counter of requested bytes; AllocFacts.v proves that the counter does not change what is read (C74_same) and, by induction over the type with the amortised bound 8 * asked + w * bits left, that the requests are paid for by the bits taken. Missing: types that C49 does not cover, types that seek, sources that fail. The input alone is no bound for counts on other collections than Vec<u8>: C74_counted_vec_refuted, C74_counted_bytes_refuted (finding 51). Not counted: what push reserves ahead (a constant factor), hash table control bytes, messages of errors, Box::new and Arc::new of one value, hand-written readers.
* **C75 Enum variants can be added at the end** (proved; 14 theorems, 2 of them refutations). CompatSpec.v defines extends; CompatFacts.v proves by induction over the two declarations that the readers agree, or the old one returns Parse, or (grown elements) the new one panics, a relation closed under sequencing and loops; likewise for the writers. A vector of elements that need more memory in the new version may exceed isize::MAX bytes and panic, so C75_old_messages asks for equal sizes or for a type of C49. Enums with a default variant, where it is false: C75_default_refuted. A variant put in front of a pattern: C75_in_front_refuted.
* **C76 Assertions only refuse** (proved; 10 theorems). UncheckedSpec.v erases the assertions; UncheckedFacts.v proves by induction over the type that reader and writer agree with the erased ones or return Assertion. C76_passes and C76_write_passes are about the assertions of the fields of a struct itself, wherever it is nested, and ask that the assertions hold at any position.
* **C77 A failing sink keeps a prefix and its error is reported** (proved; 1 theorems). FailSpec.v says which calls were made and failed; FailFacts.v runs the writer against the real sink and against one that never fails, and shows by the simulation of SinkSim.v that they agree until the first failed call. For declarations that write in order (writes_in_order: no seek attributes, hand-written writers do not seek). With seeks the stored bytes are no prefix even without failures: C60_seek_refuted.
* **C78 Fields can be added at the end** (proved; 5 theorems, 2 of them refutations). GrowSpec.v defines longer; GrowFacts.v proves by induction over the fields that reading and writing the longer list is reading and writing the shorter one, then the rest. Writing: for declarations without seeks; writer and temp_value of the old fields do not name the new ones. TryFrom of the old version refuses new messages (C78_try_from_refuted), and inside another type the new fields are taken for what follows (C78_nested_refuted).
* **C79 A failing source gives an error, not a panic or a hang** (partial; 5 theorems, 3 of them refutations). SpendFacts.v: every read of n bits takes n bits off a potential (the bits not yet read and nine for each call that may still fail), a swallowed failure included, and leaves the reader aligned with what it has counted; FaultSafe.v repeats the induction of C49 with it. Hand-written readers: any that read and stop at an error (C79_hand_written: these also meet the condition of C49); missing are those that seek, skip whole bytes or call end(). False for padding of a byte or more within the elements of a vector (C79_padding_refuted: a swallowed failure and the padding make the bit count go back, and its difference underflows) and for types that are flow_type but not safe_type (C79_flow_refuted: the reads that would tell that the source is past its end are swallowed). If every call fails, read_all may go on for ever (C79_endless_refuted).
* **C80 It does not matter how a source or sink cuts its bytes into pieces** (proved; 8 theorems). ChunkFacts.v: every read_exact loop is one call of the stream model with one answer of its fault oracle; the answers of a run are collected into an oracle. ProgRead.v and ProgWrite.v build the programs by the closure inductions closed_read and closed_write, now into Type. CodeSpec.v: hand-written code as an inductive class of programs; ProgHand.v: each is such a program. Chunks.v models std's read_exact and write_all as loops over read and write. C80_read_program and C80_write_program give for every type a program that makes these calls only; C80_read_pieces and C80_write_pieces compare its runs, C80_failing_sources and C80_failing_sinks carry the theorems about failing streams over. Hand-written types that use the methods of Reader and Writer are covered (C80_read_by_hand, C80_write_by_hand); reader and writer attributes are outside.
* **C81 Messages put one behind another can be taken apart in one way only** (proved; 4 theorems, 2 of them refutations). PrefixFacts.v: from the round trip of C28 with any bytes behind the message; lists by induction. Hand-written impls that follow their format are included. False for read_all (C81_read_all_refuted), and for lists of empty messages (C81_empty_refuted).
* **C82 The integer type of a field with a size does not matter to the wire** (partial; 10 theorems, 5 of them refutations). RetypeSpec.v: related declarations; RetypeFacts.v: the value of n bits is one for all types with room; mutual induction over declarations for reading and for the format; bytes by the round trip of C28. RetypeSigned.v: sign extension gives the number the low bits stand for, whatever the width. Writing: false for more than 8 bits big-endian and least significant bit first (C82_big_lsb_refuted; reading holds). A Vec<u8> with a count stays a Vec<u8> (C82_vec_refuted), and a vector with a count keeps the size of its elements in memory, which is in the model. Without a size it is false (C82_unsized_refuted). Missing: derived types with signed fields (signed integers themselves: C82_signed_reads, C82_signed_writes); what values outside the format are written to; the first field of id_pat variants. For signed integers it is false with a size in bytes (C82_signed_bytes_refuted) and, on writing, with a bit_order (C82_signed_order_refuted).
* **C83 SIZE_BITS of input is enough to read, and exactly that is taken** (partial; 10 theorems, 5 of them refutations). SizeReadSpec.v: the declarations; SizeReadFacts.v: how much each reader operation takes, integers, then mutual induction over declarations; the API from a fresh reader. Hand-written readers are an inductive class of programs (`asks`), each step with the number of bits it takes. False for temp fields (C83_temp_refuted), bits on a tuple (C83_tuple_bits_refuted), u8 with bits over 8 (C83_u8_bits_refuted), reader attributes that take another number of bits than the type (C83_reader_refuted); exactness is false with cond or skip (C83_cond_refuted). Reader attributes that take the size of the field are covered (asks). Excluded: maps and readers that make up an Incomplete themselves.
* **C84 Count, length in bits and length in bytes mean the same for elements of one size** (partial; 7 theorems, 3 of them refutations). LimitSpec.v: the structs; LimitFacts.v: the loops stop at the same element because every element takes n bits (C83); LimitAny.v: without padding by seeks a successful read adds n bits to the count from any reader. Any source and anything before the collection if the pads inside an element have less than 8 bits (C84_lengths_anywhere, C84_array_anywhere; readers inside an element may be written by hand if they count the size of their field); with longer pads if the collection starts at a known bit of an input of its own, and false in a source that is not at its start (C84_pads_refuted). False for a Vec<u8> with a count, which checks all its bytes first (C84_vec_u8_refuted), and a length that ends inside an element is overrun (C84_overshoot_refuted).
* **C85 A field of fixed size can be patched in place** (proved; 3 theorems, 2 of them refutations). PatchSpec.v: attributes that do not use a field; PatchFacts.v: the format split before and after the field, lengths from the sizes of DekuSize (P_Size.v), later fields equal by induction, bytes from C28. If a later field uses the patched one it is false: C85_used_refuted, C85_endian_refuted. Reader, writer and seek attributes are outside, as in C28.
* **C86 The order of enum variants does not matter if their ids do not overlap** (proved; 8 theorems, 1 of them refutations). ReorderSpec.v: reordered lists of variants; ReorderFacts.v: the variant chosen by C33's specification is the same, then equality of executions. With overlapping ids the first variant wins, so the order matters: C86_overlap_refuted. Ids taken from implicit Rust discriminants change with the order; here a variant keeps its discriminant. The enum is the type read; where it is nested, attributes of other fields could tell the variants apart.
* **C88 Declarations that say the same in other words behave alike** (proved; 8 theorems, 4 of them refutations). RewordSpec.v: the rewordings as an inductive relation, closed under parts, reversal and chaining; RewordFacts.v: by induction on it, equal executions of readers and writers. Where the words differ: cond = "false" is not skip, the field is still written (C88_cond_skip_refuted); padding does not move across a magic (C88_pad_magic_refuted) or into another bit order (C88_pad_order_refuted); the magic of a temp field is not counted in the size (C88_size_refuted), so the size part is C88_size_partial. The text of assertion messages is not modelled. The first field of an id_pat variant without a reader takes the rules about one field only.
* **C87 Targets with a narrower usize read and write the same, or refuse** (proved; 14 theorems, 2 of them refutations). Width.v: the functions in which usize matters, for any width; WidthFacts.v: equal executions or a refusal, closed under sequencing. WidthFlow.v: with C49's invariant, the numbers that can occur fit. WidthWrite.v: writing, and numbers that do not fit. The refusals happen: on 32 bits a four-byte count panics where a 64-bit target reports a short input (C87_count_refuted, C87_bytes_refuted). With 64 bits nothing differs (C87_wide). Counters of bits are unbounded, so inputs shorter than usize::MAX bits. A usize field has another size on another target; hand-written readers and writers are taken to be the same.

## 7. Findings

Behaviour of the code that differs from what its documentation or a user would
expect, found while modelling. Each has a witness theorem where one is named; a
witness is an input on which the model computes the behaviour.

Reader

1. `skip_bits(n)`, n >= 8, with a peeked byte (after `end()`) skips one byte too
   many (`C09_skip_peeked_refuted`, `C08_end_then_skip_refuted`).
2. Skipping past the end by whole bytes succeeds (`C09_skip_past_end_refuted`).
3. `skip_bits(n)`, n >= 8, fails on `NoSeek` and inflates `bits_read` on a source
   that was not at position 0 (`C09_skip_noseek_refuted`, `C09_skip_offset_refuted`).
4. A failed read inside a byte drops the buffered bits; a later long skip panics
   (`C09_skip_after_failure_refuted`).
5. A bit read swallows I/O errors other than end of input on whole bytes and returns
   zeros (`C10_bit_read_refuted`); hence `until` over a failing source never returns
   (`C41_failing_source_hangs_refuted`).
6. `end()` on an I/O error buffers a byte 0 that was never delivered (`C10_end_refuted`).
7. `read_bytes(0)` with a peeked byte panics (`C06_zero_byte_read_refuted`).
8. `read_exact_vec` (a counted `Vec<u8>`): panics past the end of the source and for
   counts above 2^61, misjudges the available bytes after `end()`, fails on `NoSeek`, and
   ignores the bit order (`C40_*_refuted`, `C27_*_refuted`, `C49_past_end_refuted`).

Writer

9. The first Lsb0 write of more than 8 bits on a fresh writer is emitted in the wrong
   byte order (`C12_lsb0_first_write_refuted`, `C16_lsb0_first_write_refuted`).
10. Mixed orders inside a byte do not round-trip in general
    (`C17_mixed_round_trip_refuted`); `write_bytes` treats pending Lsb0 bits as Msb0.
11. After an I/O error the next write can panic (`C13_after_io_error_refuted`).
12. `seek` silently drops pending bits (`C39_pending_refuted`, `C39_field_lost_refuted`).

Integers

13. Big-endian Lsb0 fields with 8 < bits < width lose data (`C23_*_refuted`).
14. Signed integers with endian, bits and bit_order are range-checked as unsigned
    (`C21_negative_rejected_refuted`, `C21_overflow_accepted_refuted`); with a byte
    size, or with 16 bits and no endian, they are not sign-extended
    (`C21_byte_size_refuted`, `C20_signed_bits16_refuted`).
15. `bytes = n` truncates on write (`C22_high_bytes_lost_refuted`).
16. `bits = 0` panics (`C19_zero_bits_refuted`, `C41_zero_bits_refuted`).
17. `u8` ignores `bytes = n` and `bits = 16` without endian
    (`C24_u8_oversize_refuted`, `C32_u8_bytes_refuted`, `C83_u8_bits_refuted`).

Collections

18. A `Vec` of zero-sized elements ignores its count (`C25_zero_sized_refuted`); a set of
    them, or a `Vec` of elements that read nothing, loops with `read_all`
    (`C41_empty_elements_hang_refuted`, `C49_no_progress_refuted`).
19. Bit and byte limits inside an element are passed over
    (`C26_limit_inside_element_refuted`).
20. A count from the input can make `Vec::with_capacity` panic
    (`C40_capacity_refuted`, `C49_huge_count_refuted`).
21. Elements that seek back make the loop panic (`C25_seeking_refuted`,
    `C49_seeking_element_refuted`).

Derive

22. A field with a false `cond` is not read but is written (`C28_cond_default_refuted`).
23. `count` on `Vec<u8>` inside a byte of an Msb0 type does not round-trip
    (`C28_misaligned_bytes_refuted`).
24. An enum with `id = ..` and an `id_pat` variant writes its first field with the
    arguments of the id and without its assertion
    (`C28_id_pat_with_id_refuted`, `C35_id_pat_with_id_refuted`).
25. `id_type` with a container `endian` and without `id_endian`: a stored id is read
    with the container's byte order and written with the native one
    (`C28_stored_id_endian_refuted`). On a big-endian machine it is the little-endian enums
    that do not come back (`C70_stored_id_refuted`).
26. `TryFrom` reports too much data when the last byte is only partly consumed (`C30_partial_last_byte_refuted`).
27. Chaining `from_bytes` with a bit offset is wrong for Lsb0 (`C29_lsb_refuted`) and
    after a counted `Vec<u8>` inside a byte (`C29_vec_inside_refuted`).
28. With `seek` attributes `to_slice` returns a wrong length (`C31_seek_refuted`).
29. `SIZE_BITS` omits `temp` fields, counts skipped fields, and multiplies wrongly for
    sizes on tuples (`C32_*_refuted`).
30. The magic of an Lsb0 container inside a byte cannot be read back
    (`C34_lsb_magic_refuted`); padding after an `end` check skips too much
    (`C34_padding_after_end_check_refuted`).
31. A bare `Option` writes nothing for `None` and never reads `None`
    (`C36_option_none_refuted`).
32. `NoSeek`'s position is not advanced by the delivered part of a failed transfer
    (`C38_position_refuted`).
33. `deku_id` is an error for variants with only a discriminant
    (`C51_discriminant_refuted`) and not the id that was read for a default variant
    (`C51_default_refuted`).
34. A size of 0 bits panics (`C52_zero_bits_refuted`); a seek offset that does not convert
    panics, also when reading untrusted input (`C52_seek_refuted`, `C52_seek_read_refuted`).
35. Recursive types: the nesting is not limited, so an input of a few thousand bytes can
    overflow the stack (`C53_stack_refuted`); a recursion through `Option<Box<Self>>`
    never ends (`C53_option_refuted`, `C53_unguarded_refuted`).
36. With the feature `bits` padding is skipped by seeking, without it it is read: padding
    missing at the end of a source is noticed only without it
    (`C54_truncated_padding_refuted`), padding on a source without seek works only without
    it (`C54_noseek_refuted`), and `read_all` of elements that begin with padding reads
    wrong values with it (`C54_read_all_padding_refuted`). Padding that is missing is forgotten with
    the feature once a later field seeks back (`C54_seek_refuted`).
37. Without `bits`, `from_bytes` with a nonzero bit offset panics, even for whole bytes
    (`C54_offset`, `C54_offset_refuted`).
38. The size in `Incomplete` ("Number of bits needed to retry parsing") is the size of the
    read that failed, not of what is missing: a program that waits for all of it waits for
    bytes beyond the message (`C55_missing_refuted`); after padding beyond the end of the
    input it stays the same however often it is obeyed within the padding
    (`C55_padding_refuted`).
39. Attributes that are accepted and do nothing: `until` beside `count` or `bytes_read`,
    `bits_read` beside `until` (`C56_limit_refuted`), all but one of several seeks on a
    struct, every seek on an enum (`C56_container_seek_refuted`); without the feature
    `bits` also `read_all` beside another limit, because that check is compiled only with
    it (`C56_with_bits_refuted`).
40. `bits`, `endian`, `ctx` and `bit_order` on a counted `Vec<u8>` are ignored on reading
    but used on writing: what is read cannot be written (`C56_vec_u8_bits_refuted`).

41. On a source that does not stand at its start (the second message of a stream, a file
    with a header), a pad of a byte or more makes `from_reader` return a wrong number
    of bits, because `Reader::seek` sets `bits_read` to the absolute position; a
    `Vec` with `bytes_read` of elements with such pads then ends early, without an
    error (`C59_padding_count_refuted`, `C59_padding_value_refuted`). The value alone
    shows nothing at the start of the source, where the absolute position is right.
42. A HashMap or HashSet with `count`: the count includes duplicate keys, so the struct
    that was read is written with a count that is too large, and cannot be read
    (`C61_duplicates_refuted`).  A HashSet of zero-sized elements with `read_all` never
    ends on an input with a byte left, a Vec is empty at once
    (`C61_zero_sized_refuted`).

43. On writing, `deku::bit_offset` excludes the bits pending in the writer and ignores
    seeks, so an expression that holds on reading may fail on writing
    (`C63_write_refuted`, `C63_write_seek_refuted`). The documented use of
    `deku::byte_offset` in a struct that gets its size by `ctx` works only at the start
    of the input (`C63_nested_refuted`).
44. A `Reader::seek` that fails has already dropped the buffered bits
    (`C39_failed_refuted`).
45. `SIZE_BITS` does not account for a hand-written writer or reader (`C83_reader_refuted`) or `seek`
    (`C32_writer_refuted`); entries of hash collections whose encoding depends on
    `deku::bit_offset` change with the iteration order (`C61_offset_refuted`).

46. On a variant, `writer` replaces the id too, while `reader` starts behind it: a pair of
    inverse functions does not round-trip, and the value may come back as another variant
    (`C65_inverse_refuted`). `deku_id` of a variant with a `reader` is
    `IdVariantNotFound` although it has an id (`C65_deku_id_refuted`).

47. `Error::cause` of a `DekuError` returns the error itself, so a program that prints the
    chain of causes never ends (`C67_cause_refuted`). An error that passes through an
    `io::Error` comes back as `Io` of a kind: a failed assertion and a parse error are then
    the same, and the size of `Incomplete` is lost (`C67_there_and_back_refuted`).

48. `update` does not reach nested structs: their counts stay wrong, and the value is
    received as another one (`C68_nested_refuted`).

49. `#[deku(bits = 4)]` and `#[deku(ctx = "BitSize(4)")]` are documented as equivalent
    (src/attributes.rs:1814-1828), but `DekuSize` counts 4 bits for the first and the
    whole type for the second, although both read 4 bits (`C71_size_refuted`).

50. In an optimised build a `bytes_read` length from the input is multiplied by 8 modulo
    2^64: a length of 2^61 is accepted as 0, where the debug build panics
    (`C72_bytes_read_refuted`). Elements that seek back to before their vector make it grow
    for ever (`C72_seeking_element_refuted`), and `bits = 0` reads 0 or writes nothing in
    one build and panics in the other (`C72_no_bits_refuted`, `C72_write_no_bits_refuted`).

51. The check that a count can be met before memory is asked for (`vec.rs:21-36`) is made
    for a field written `Vec<u8>` only. `Vec<u16>`, `Box<[u8]>`, `HashMap`, `HashSet`,
    `Option<Vec<u8>>` with a `count` and a `CString` with `bytes` ask for everything up
    front: four bytes of input ask for eight gigabytes (`C74_counted_vec_refuted`,
    `C74_counted_bytes_refuted`).

52. A variant added to an enum with a `default` variant changes the meaning of messages that the
    old version accepts (`C75_default_refuted`); added at the end of an enum without one, it
    does not (C75).

53. A source that fails while whole bytes of a bit field are read (the failure is swallowed,
    C09) followed by a vector whose elements have `pad_bytes_before`: the padding is
    seeked over, which sets `bits_read` to the position of the source, behind the start of
    the vector, and `bits_read - start_read` (`vec.rs:78`) panics (`C79_padding_refuted`).

54. A failed transfer that has taken part of its bytes leaves the source behind `NoSeek` further
    than the position it reports, which counts completed calls only (`C38_lost_bytes_refuted`).

55. SIZE_BYTES of input is not enough to read a type with a `temp` field or with `bits` on a tuple
    (`C83_temp_refuted`, `C83_tuple_bits_refuted`); a `bytes_read` that ends inside an element is
    overrun without an error, up to the end of the input (`C84_overshoot_refuted`).

56. On a 32-bit target a count of four bytes taken from the input panics: `Vec::with_capacity`
    for elements of two bytes or more (`C87_count_refuted`), and for `Vec<u8>` the very check
    that the input is long enough, which computes `exact.0 * 8` first (`vec.rs:33`,
    `C87_bytes_refuted`). On a 64-bit target both report a short input.

57. In a source that is not at its start, a collection with `bits_read` or `bytes_read` whose
    elements contain a byte of padding does not stop where it should: the padding seeks, and
    the seek sets the count of bits to the absolute position (`C84_pads_refuted`). With
    `count` it reads as expected.
58. A `Writer` cannot be used again after a failed write: the full byte stays in the
    leftover, and the next call panics on `debug_assert!(leftover.len() < capacity)`
    (src/writer.rs:120, 143-147). So a hand-written writer that catches an error and goes on
    panics (`C52_after_error_refuted`); by reading, a release build writes the byte again.
59. A `Reader` may be used again after an error (`C49_catching`), with one exception: a seek
    that fails drops the buffered bits but not their count, and a later skip of a byte or
    more panics on `debug_assert_eq!(self.bits_read % 8, 0)` (src/reader.rs:199;
    `C49_skip_after_error_refuted`).

Not a theorem, noted while reading: the variant-level
`reader` attribute, documented as usable on variants (src/attributes.rs:62), is
emitted as `{ expr; }` (deku_read.rs:304-308, 343-357), so that the arm has the type
`()` and does not compile unless the expression returns by itself.
The `update` of the documented example of `bytes_read` (src/attributes.rs:1031), half of the
number of items, is not the number of their bytes: a value written after `update()` does
not read back (`V_Docs.v`, doc_bytes_read_update).
