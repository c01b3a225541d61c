{"id": "C01", "title": "Msb0 reads follow the input bit string", "statement": "Any sequence of successful Msb0 bit reads, byte reads and end-of-input checks on a Reader returns exactly the consecutive segments of the input's most-significant-bit-first bit string, in order, with no bit lost, repeated or reordered, whatever the sizes requested and wherever byte boundaries fall.", "quantifier": "every input byte string, every sequence of read operations of any sizes, every alignment", "why_tests_cant": "the segments depend on an unbounded history of sizes and on the bits buffered between calls; tests fix a handful of size sequences", "anchors": ["src/reader.rs: Reader::read_bits_into, Reader::read_bits, Reader::read_bytes, Reader::read_bytes_const_into, Reader::end, Reader::rest"]}
{"id": "C02", "title": "Lsb0 reads follow the least-significant-first bit string", "statement": "Any sequence of Lsb0 bit reads returns the consecutive segments of the input's least-significant-bit-first bit string (each segment delivered with its latest bit first), for every sequence of sizes and every alignment.", "quantifier": "every input, every sequence of Lsb0 sizes", "why_tests_cant": "the reversed chunk arithmetic has different branches for every residue of the size and of the buffered bits; tests cover a few structs", "anchors": ["src/reader.rs: Reader::read_bits_into"]}
{"id": "C03", "title": "Mixed bit orders consume each input bit exactly once", "statement": "For any interleaving of Msb0 and Lsb0 bit reads, a partially consumed byte behaves as a double-ended queue: Msb0 takes from its most significant end, Lsb0 from its least significant end; whole bytes are taken in stream order, and every input bit is delivered at most once and none is skipped.", "quantifier": "every input and every interleaving of orders and sizes", "why_tests_cant": "the number of interleavings is unbounded and each changes what is buffered", "anchors": ["src/reader.rs: Reader::read_bits_into"]}
{"id": "C04", "title": "The integer read fast path is observationally the generic path", "statement": "Reading 1..=64 bits big-endian/Msb0 through the integer fast path yields the same value, the same error, the same remaining input and the same bit count as the generic bit-slice path, from every reachable reader state over a non-failing source.", "quantifier": "every amount 1..=64, every reader state, every input", "why_tests_cant": "equivalence of two implementations over all states is not a finite check", "anchors": ["src/reader.rs: Reader::read_bits_uint_msb0, Reader::read_bits_into", "src/impls/primitive.rs: ImplDekuReadBits"]}
{"id": "C05", "title": "bits_read is exact", "statement": "After any sequence of bit/byte reads and end checks without seeks, bits_read equals the total number of bits delivered by the successful reads; failed reads and end checks add nothing.", "quantifier": "every operation sequence, including failing reads", "why_tests_cant": "an accounting invariant over unbounded histories; deku::bit_offset, from_bytes and Vec bit limits all depend on it", "anchors": ["src/reader.rs: Reader::bits_read, read_bits_into, read_bytes, end"]}
{"id": "C06", "title": "Short input is reported as Incomplete and never as a value", "statement": "A bit or byte read succeeds exactly when enough unread bits remain; otherwise it returns Incomplete whose size is positive, is no larger than the request and, when nothing was peeked, equals the request.", "quantifier": "every state, every size", "why_tests_cant": "must hold for every truncation point and alignment", "anchors": ["src/reader.rs: read_bits_into, read_bits_uint_msb0, read_bytes, read_bytes_leftover, read_bytes_const_into", "src/error.rs: NeedSize"]}
{"id": "C07", "title": "Appending input never changes a successful read", "statement": "If a sequence of reads succeeds on some input, it returns the same values on that input followed by any further bytes.", "quantifier": "every input, every extension, every read sequence", "why_tests_cant": "quantifies over all extensions; streaming parsers rely on it", "anchors": ["src/reader.rs: read_bits_into, read_bytes, read_bits_uint_msb0"]}
{"id": "C08", "title": "end() is transparent", "statement": "Calling end() at any point does not change the result of any later read, and it returns true exactly when no unread bit remains.", "quantifier": "every state and every continuation of reads (bit reads, byte reads, skips)", "why_tests_cant": "the peeked byte interacts with every later operation kind, size and alignment", "anchors": ["src/reader.rs: Reader::end, read_bytes_leftover, read_bytes_const_leftover, skip_bits"]}
{"id": "C09", "title": "Skipping n bits equals reading and discarding n bits", "statement": "skip_bits(n) leaves the reader in a state from which every later read returns what it would have returned after reading and discarding n bits.", "quantifier": "every n, every order, every reachable reader state with enough input", "why_tests_cant": "skip combines buffered bits, a seek and a partial byte; the branch taken depends on history", "anchors": ["src/reader.rs: Reader::skip_bits", "deku-derive/src/macros/deku_read.rs: emit_padding"]}
{"id": "C10", "title": "A failing source is never turned into data", "statement": "If the underlying reader reports an I/O error while a value is being read, the read returns that error; no value is produced from bytes that were not delivered.", "quantifier": "every input, every fault position, every error kind, every read operation", "why_tests_cant": "fault positions and kinds are unbounded and tests use in-memory cursors that never fail", "anchors": ["src/reader.rs: read_bits_into, read_bits_uint_msb0, read_bytes, end"]}
{"id": "C11", "title": "Msb0 writes are concatenated", "statement": "For any sequence of Msb0 bit writes and byte writes, the bytes emitted followed by the pending bits are exactly the concatenation of everything written, independent of how the writes are split.", "quantifier": "every sequence of bit strings and byte strings", "why_tests_cant": "every residue of pending bits and lengths, over unbounded histories", "anchors": ["src/writer.rs: write_bits_order_msb_msb, write_bits, write_bytes, write_bits_uint_msb0"]}
{"id": "C12", "title": "Lsb0 writes are concatenated least-significant-first", "statement": "For any sequence of Lsb0 bit writes, the emitted bytes and the pending bits read least-significant-bit first are exactly the concatenation of the values written least-significant-bit first.", "quantifier": "every sequence of bit strings, from a fresh writer", "why_tests_cant": "depends on the pending bits' order tag and on every length residue", "anchors": ["src/writer.rs: write_bits_order_lsb_lsb, write_bits_order_msb_lsb"]}
{"id": "C13", "title": "The writer never panics and conserves bits", "statement": "For any interleaving of Msb0 and Lsb0 writes of any lengths, no assertion fires, fewer than 8 bits are ever pending, and the number of bits emitted plus pending equals the number of bits written; bits_written is always 8 times the number of bytes emitted.", "quantifier": "every sequence of orders and lengths", "why_tests_cant": "sixteen order/length-residue cases compose over unbounded histories; the code guards them with assertions that tests may not reach", "anchors": ["src/writer.rs: write_bits_order, write_bits_order_msb_msb, write_bits_order_msb_lsb, write_bits_order_lsb_msb, write_bits_order_lsb_lsb", "src/lib.rs: BoundedBitVec"]}
{"id": "C14", "title": "The integer write fast path is observationally the generic path", "statement": "Writing the low 1..=64 bits of an integer through the fast path emits the same bytes and leaves the same pending bits as writing those bits through the generic Msb0 path, for every writer state whose pending order is Msb0.", "quantifier": "every value, amount and writer state", "why_tests_cant": "equivalence of implementations over all states", "anchors": ["src/writer.rs: write_bits_uint_msb0, write_bits_order_msb_msb", "src/impls/primitive.rs: ImplDekuWrite"]}
{"id": "C15", "title": "finalize pads with zeros to a whole byte and nothing else", "statement": "finalize emits the pending bits padded with zero bits to one byte (after them for Msb0, before them for Lsb0), emits nothing when none are pending, and is idempotent.", "quantifier": "every writer state", "why_tests_cant": "must hold for every pending length and order", "anchors": ["src/writer.rs: Writer::finalize"]}
{"id": "C16", "title": "What is written in one bit order is read back", "statement": "Writing any list of bit strings in one order, finalizing, and reading strings of the same lengths in that order returns the original strings.", "quantifier": "every list of bit strings, both orders", "why_tests_cant": "round trip over unbounded lists of lengths", "anchors": ["src/writer.rs: write_bits_order, finalize", "src/reader.rs: read_bits_into"]}
{"id": "C17", "title": "Mixed-order round trip", "statement": "Writing a sequence of bit strings with given orders, finalizing and reading with the same lengths and orders returns the original strings.", "quantifier": "every sequence of lengths and orders", "why_tests_cant": "unbounded interleavings; the reader and the writer treat a partly filled byte independently", "anchors": ["src/writer.rs: write_bits_order_lsb_msb, write_bits_order_msb_lsb", "src/reader.rs: read_bits_into"]}
{"id": "C18", "title": "Unsigned integers round-trip at every bit width", "statement": "For every unsigned type, byte order, bit order and bit size n, a value below 2^n written with that context is read back unchanged and the read consumes exactly the bits written, at any alignment in a stream of that bit order.", "quantifier": "every type width, endianness, bit order, n from 1 to the width, value, alignment", "why_tests_cant": "128 widths x orders x alignments x 2^128 values", "anchors": ["src/impls/primitive.rs: ImplDekuReadBits, ImplDekuWrite, ImplDekuWriteDetails, u8 impls"]}
{"id": "C19", "title": "The bit-size range check is exact", "statement": "Writing an unsigned integer with bit size n succeeds exactly when n does not exceed the type's width and the value is below 2^n; otherwise it returns InvalidParam and the writer is unchanged.", "quantifier": "every type width, n, value, endianness, order, writer state", "why_tests_cant": "an if-and-only-if over all values and widths in five code paths", "anchors": ["src/impls/primitive.rs: ImplDekuWrite, ImplDekuWriteDetails, DekuWriter<(Endian, BitSize, Order)> for u8"]}
{"id": "C20", "title": "Signed integers with a bit size: exact range and sign-preserving round trip", "statement": "Writing a signed integer with bit size n succeeds exactly when -2^(n-1) <= v < 2^(n-1) and then reads back as v, in every byte order.", "quantifier": "every signed type, n, value, endianness", "why_tests_cant": "values and widths are unbounded for testing; sign extension depends on the width", "anchors": ["src/impls/primitive.rs: ImplDekuWriteDetails Signed, ImplDekuReadSignExtend"]}
{"id": "C21", "title": "Signed integers keep their meaning under an explicit bit_order and under byte sizes", "statement": "Adding bit_order = \"msb\" (the default order) or giving the size in bytes instead of bits does not change which signed values can be written nor what is read back.", "quantifier": "every signed type, size and value", "why_tests_cant": "needs comparison of four trait impls over all values", "anchors": ["src/impls/primitive.rs: ImplDekuWrite, ImplDekuReadSignExtend, ForwardDekuRead"]}
{"id": "C22", "title": "Byte-sized integers never silently lose value bits", "statement": "Writing an integer with bytes = n either writes an encoding from which the same value is read back or returns an error.", "quantifier": "every type, n, value, endianness", "why_tests_cant": "needs all values above the 8n-bit range", "anchors": ["src/impls/primitive.rs: DekuWriter<(Endian, ByteSize)>, ImplDekuReadBytes"]}
{"id": "C23", "title": "Big-endian Lsb0 fields round-trip", "statement": "A field with endian = big and bit_order = lsb and any bit size reads back what was written, and whatever is read can be written again.", "quantifier": "every bit size and value", "why_tests_cant": "the write chunks bytes from the front while the read places them from the back, per size residue", "anchors": ["src/impls/primitive.rs: ImplDekuReadBits (Lsb0 branch), ImplDekuWrite (Big, Lsb0)"]}
{"id": "C24", "title": "Reading an oversize field is rejected before consuming input", "statement": "Asking for more bits or bytes than the type can hold returns Parse and leaves the reader untouched, for every multi-byte type and context.", "quantifier": "every type, size, reader state", "why_tests_cant": "all sizes above the width and all states", "anchors": ["src/impls/primitive.rs: from_reader_with_ctx impls"]}
{"id": "C25", "title": "Vec count reads exactly count elements and round-trips", "statement": "Reading a Vec with a count returns exactly that many elements read back to back, and for a writable element codec reading with count = len returns the vector that was written.", "quantifier": "every element codec, every list, every count", "why_tests_cant": "lists are unbounded; must hold for every lawful element", "anchors": ["src/impls/vec.rs: reader_vec_with_predicate, Limit::Count, to_writer"]}
{"id": "C26", "title": "Vec until/bits_read/bytes_read/read_all stop exactly where documented", "statement": "until stops right after the first element satisfying the predicate; a bit or byte limit reads elements until exactly that many bits are consumed; read_all consumes elements until no input remains; in each case the elements are those read back to back.", "quantifier": "every element codec, input, limit and predicate", "why_tests_cant": "unbounded inputs and arbitrary predicates", "anchors": ["src/impls/vec.rs: reader_vec_with_predicate, reader_vec_to_end"]}
{"id": "C27", "title": "The bulk Vec<u8> count path agrees with element-wise reading", "statement": "A Vec<u8> field with a count yields the bytes that reading count single u8 elements would, at every alignment.", "quantifier": "every input, count, alignment", "why_tests_cant": "the bulk path is chosen by the derive macro and uses its own order and availability check", "anchors": ["src/impls/vec.rs: DekuReader<ReadExact> for Vec<u8>", "deku-derive/src/macros/deku_read.rs: emit_field_read"]}
{"id": "C28", "title": "Derived structs and enums round-trip", "statement": "For a derived container whose fields use one bit order, any well-formed value is read back unchanged from its own bytes followed by arbitrary data, consuming exactly what was written.", "quantifier": "every container shape built from the modelled field kinds, every value consistent with its attributes, every trailing input, hand-written types that follow a format step by step included", "why_tests_cant": "schemas, values and trailing data are unbounded", "anchors": ["deku-derive/src/macros/deku_read.rs: emit_struct, emit_enum, emit_field_read", "deku-derive/src/macros/deku_write.rs: emit_struct, emit_enum, emit_field_write"]}
{"id": "C29", "title": "from_bytes returns exactly the unread remainder", "statement": "from_bytes((input, offset)) returns the suffix of the input beginning at the first byte not fully consumed and the number of bits of it already consumed, so that its bits after that offset are exactly the bits not yet read; calling from_bytes again with the returned pair continues as one reader would.", "quantifier": "every input, offset, container", "why_tests_cant": "all containers, offsets and inputs", "anchors": ["deku-derive/src/macros/deku_read.rs: from_bytes body"]}
{"id": "C30", "title": "TryFrom accepts exactly the inputs that are consumed to the last byte", "statement": "TryFrom<&[u8]> returns the value from_bytes would exactly when the container consumes input into its last byte; otherwise it reports too much data.", "quantifier": "every input and container", "why_tests_cant": "all inputs", "anchors": ["deku-derive/src/macros/deku_read.rs: emit_try_from"]}
{"id": "C31", "title": "to_bytes, to_slice and to_bits agree", "statement": "to_slice writes exactly the bytes of to_bytes at the start of the buffer, returns their number and leaves the rest of the buffer unchanged, failing exactly when the buffer is too small; to_bits is the unpadded form of to_bytes.", "quantifier": "every sequence of writes, every buffer size and content", "why_tests_cant": "all values and buffer sizes", "anchors": ["src/lib.rs: DekuContainerWrite::to_bytes, to_slice, to_bits"]}
{"id": "C32", "title": "SIZE_BITS equals the number of bits written", "statement": "For a derived DekuSize struct, SIZE_BITS is the number of bits every value writes, and for an enum it is an upper bound reached by the largest variant. SIZE_BYTES is SIZE_BITS / 8 if that is whole, else None; a buffer of SIZE_BYTES is filled by to_slice for every value of a struct, and large enough for every value of any type.", "quantifier": "every container deriving DekuSize, every value", "why_tests_cant": "all schemas and values", "anchors": ["src/lib.rs: DekuSize", "deku-derive/src/macros/deku_size.rs: calculate_fields_size, emit_struct, emit_enum", "src/impls/slice.rs", "src/impls/tuple.rs"]}
{"id": "C33", "title": "Enum dispatch takes the first matching variant and ids survive a round trip", "statement": "Reading an enum selects the first variant, in declaration order, whose id or pattern matches the id read, falling back to a default variant and otherwise returning Parse; writing a variant emits an id that reads back to that variant.", "quantifier": "every id value, every list of variants", "why_tests_cant": "all ids and variant lists, including overlapping patterns", "anchors": ["deku-derive/src/macros/deku_read.rs: emit_enum", "deku-derive/src/macros/deku_write.rs: emit_enum"]}
{"id": "C34", "title": "Magic and padding are enforced and symmetric", "statement": "A container with a magic reads only from inputs carrying exactly those bytes at that point and always writes them; padding writes exactly the requested number of zero bits and reads skip exactly as many bits whatever their content.", "quantifier": "every magic, padding amount, alignment, input", "why_tests_cant": "all amounts (the writer loops in chunks), inputs and alignments", "anchors": ["deku-derive/src/macros/deku_read.rs: emit_magic_read, emit_padding", "deku-derive/src/macros/deku_write.rs: emit_magic_write, emit_padding"]}
{"id": "C35", "title": "Assertions guard both directions", "statement": "A field with assert or assert_eq never yields a read value, and never writes a value, for which the assertion is false.", "quantifier": "every predicate, value and input", "why_tests_cant": "all values", "anchors": ["deku-derive/src/macros/deku_read.rs: emit_field_read", "deku-derive/src/macros/deku_write.rs: emit_field_write"]}
{"id": "C36", "title": "bool, NonZero, Option, tuple, array, CString and IP codecs are lawful", "statement": "Each built-in composite codec reads back what it writes, rejects encodings that have no value (bool other than 0/1, zero for NonZero, missing terminator) with Parse or Incomplete, and consumes exactly its own bits.", "quantifier": "every value, every trailing input, every alignment", "why_tests_cant": "all values and element codecs", "anchors": ["src/impls/bool.rs", "src/impls/nonzero.rs", "src/impls/option.rs", "src/impls/tuple.rs", "src/impls/slice.rs", "src/impls/cstring.rs", "src/impls/ipaddr.rs"]}
{"id": "C37", "title": "HashMap and HashSet read back the written collection", "statement": "A map or set written in any iteration order and read with count = len is the same collection; reading duplicate keys keeps the last value.", "quantifier": "every finite map, every iteration order", "why_tests_cant": "iteration order is unspecified and unbounded", "anchors": ["src/impls/hashmap.rs", "src/impls/hashset.rs"]}
{"id": "C38", "title": "NoSeek is transparent for streams that do not seek", "statement": "Reading or writing through NoSeek gives the results of the wrapped stream for any operation sequence without real seeks, and its reported position is the number of bytes transferred; real seeks fail without moving.", "quantifier": "every operation sequence", "why_tests_cant": "unbounded histories", "anchors": ["src/noseek.rs"]}
{"id": "C39", "title": "Seeking repositions the stream and resets buffered bits", "statement": "After a successful seek the next read returns the bytes at the target position, no stale bits survive, and deku::byte_offset is the target; on the writer, bits pending before a seek are either emitted or reported, never silently lost.", "quantifier": "every state and target", "why_tests_cant": "every combination of buffered bits and seek target", "anchors": ["src/reader.rs: impl Seek for Reader", "src/writer.rs: impl Seek for Writer"]}
{"id": "C40", "title": "Field limits on untrusted counts fail cleanly", "statement": "Reading a byte vector with any count, however large, from any input and any reachable reader state returns either that many bytes or Incomplete/Io; it never panics and never reports Incomplete when enough input remains.", "quantifier": "every count, input, reader state (including after end() and after seeking past the end)", "why_tests_cant": "attacker-controlled counts and positions", "anchors": ["src/impls/vec.rs: DekuReader<ReadExact> for Vec<u8>", "src/reader.rs: read_bytes, read_bytes_leftover"]}
{"id": "C41", "title": "Reading integers and collections never panics or hangs", "statement": "Reading an integer of any type and size, or a collection of such elements with any limit, returns a value or an error on every input, whatever the position inside a byte and whatever I/O calls fail; it never panics and never loops forever.", "quantifier": "every input, reader state, integer type and context, element codec, limit, pattern of I/O errors", "why_tests_cant": "fuzzing samples inputs; this quantifies over all of them and over all fault patterns, and includes termination", "anchors": ["src/impls/primitive.rs", "src/impls/vec.rs", "src/impls/hashset.rs", "src/reader.rs"]}
{"id": "C42", "title": "Buffered bits are exact: stale bits of the internal buffer never leak", "statement": "The fixed-size buffer in which readers and writers keep the bits of a partly used byte behaves as a bounded list of bits: whatever sequence of pushes, inserts, extensions, splits and clears is applied, exactly the live bits are visible, bits left over in the array from earlier use never are, and the buffer panics exactly when the live bits would not fit or an index is out of range. Consequently every history of calls on a reader or a writer, failing ones included, gives the same results, I/O and pending bits as with a plain list.", "quantifier": "every capacity, sequence of buffer operations, sequence of reader or writer calls, source and sink", "why_tests_cant": "stale bits matter only after particular sequences of operations; tests look at a few sequences from a fresh buffer", "anchors": ["src/lib.rs BoundedBitVec", "src/reader.rs Leftover", "src/writer.rs Writer::leftover"]}
{"id": "C43", "title": "Field attributes select the wire layout", "statement": "A struct is laid out as its fields one after the other. Each field takes the byte order, bit order and size of its own endian, bit_order, bits and bytes attributes; what it does not give it takes from its container, and failing that from the defaults. The id of an enum comes first and is laid out by id_type, id_endian, bits and bytes. Attributes on the container can equally be written on every field.", "quantifier": "every list of integer fields with any attributes, every container attribute, all values in range; inheritance for every derived type", "why_tests_cant": "tests fix one combination of attributes per struct; the claim ranges over all combinations, all widths, all alignments inside a byte and all values", "anchors": ["src/attributes.rs endian, bit_order, bits, bytes, id_endian", "deku-derive/src/macros/deku_read.rs", "deku-derive/src/macros/deku_write.rs", "deku-derive/src/macros/mod.rs gen_ctx"]}
{"id": "C44", "title": "Contexts reach exactly the field they are given to", "statement": "A type that declares ctx is read and written with the arguments its user passes; only when none are passed does it use ctx_default, and then exactly as if these had been passed. A field with ctx = expr is read with the value of the expression over the fields before it, and written with the value of the same expression over the stored fields.", "quantifier": "every derived type, context, argument list, position of the field, reader and writer state", "why_tests_cant": "tests pass one context through one struct; default and explicit contexts must agree on all inputs and after all prefixes", "anchors": ["src/attributes.rs ctx, ctx_default", "deku-derive/src/macros/deku_read.rs", "deku-derive/src/macros/deku_write.rs"]}
{"id": "C45", "title": "Temporary fields are read like others, dropped, and rewritten from temp_value", "statement": "Reading a type with temp fields gives the value and consumes the input of the type without temp, minus the temp fields. Writing it gives the output of the type without temp for the value in which each temp field has the value of its temp_value.", "quantifier": "every struct, set of temp fields, input, value, reader and writer state, failing I/O included", "why_tests_cant": "tests compare one struct with one byte string; equality of whole executions cannot be sampled", "anchors": ["src/attributes.rs temp, temp_value", "deku-derive/src/macros/deku_read.rs", "deku-derive/src/macros/deku_write.rs"]}
{"id": "C46", "title": "update sets exactly the fields that ask for it", "statement": "update() assigns to every field with an update attribute the value of its expression, in order, later expressions seeing earlier results, and leaves the other fields alone; it fails only with the error of an expression. If the expressions use only other fields, updating twice equals updating once. After update, the usual length-prefixed struct writes and reads back whatever the length field held before.", "quantifier": "every struct and enum, update expression, stored value", "why_tests_cant": "tests update one struct once; this covers all expressions, orders and stale values", "anchors": ["src/attributes.rs update", "src/lib.rs DekuUpdate", "deku-derive/src/macros/deku_write.rs emit_field_update"]}
{"id": "C47", "title": "The limit attributes of derived fields mean what they say", "statement": "A collection field with count, bits_read, bytes_read, until or read_all holds elements read back to back from where the field starts, and stops where the attribute, computed from the fields before it, says. A negative number or one that does not fit is an error before anything is read.", "quantifier": "every derived type, fields before, limit expression, input, reader state", "why_tests_cant": "each test fixes one expression and one input; the stop condition is a statement about every prefix of the elements", "anchors": ["src/attributes.rs count, bits_read, bytes_read, until, read_all", "deku-derive/src/macros/deku_read.rs emit_field_read", "src/ctx.rs Limit"]}
{"id": "C48", "title": "More input never changes a decided read", "statement": "If reading a value succeeds on the bytes received so far, it succeeds with the same value and the same leftover (followed by the new bytes) when more bytes are appended; an error other than Incomplete stays the same error. So a caller who receives a message in pieces may retry on Incomplete and only then. Types that ask where the input ends (read_all, seek_from_end) are excepted, and the exception is real.", "quantifier": "every derived type, input, appended bytes, bit offset, reader state, source (failing ones included), hand-written readers that return at the first error included", "why_tests_cant": "relates the results on all extensions of an input; a test sees one split of one message", "anchors": ["src/error.rs DekuError::Incomplete", "src/lib.rs DekuContainerRead::from_bytes", "src/reader.rs"]}
{"id": "C49", "title": "Untrusted input never panics or hangs, and gives a value of the type", "statement": "Reading any bytes as a derived type returns, without a panic, either an error or a value of that type (integers within the width of their type, NonZero values nonzero, arrays of their length, enum fields of the variant selected). This needs a type whose counts fit the address space, whose looped elements take input, and whose byte vectors with a count are not read past the end (padding or a seek may lead there, and any number, string or constant that is read leads back); for types violating one of these there are inputs that panic or never return.", "quantifier": "every derived type of this kind, every input and bit offset, every non-failing source, every reader state in the middle of a read; hand-written readers that return at the first error included", "why_tests_cant": "absence of panics and of endless loops over all byte strings; fuzzing samples inputs and cannot show termination", "anchors": ["src/lib.rs DekuContainerRead::from_bytes", "src/impls/vec.rs", "src/reader.rs read_bytes, skip_bits, seek", "deku-derive/src/macros/deku_read.rs"]}
{"id": "C50", "title": "Whatever was read is written back bit for bit", "statement": "If reading succeeds, writing the value succeeds and gives exactly the bits that were consumed (the last byte filled up with zero bits); TryFrom followed by to_bytes is the identity on bytes, so no two byte strings are read as the same value. This needs a type without lossy features: padding, map, default variants, conditional fields with a written default, temp fields whose temp_value differs from what was read, bytes inside an Lsb0 byte, seeks and negative numbers with an explicit bit order; each of these changes or loses bytes.", "quantifier": "every type without lossy features (bit fields, both orders and endians, counts, until, read_all, temp lengths, conditions, enums, stored ids, nested types, hand-written pairs), every input, fuel and position in a stream", "why_tests_cant": "equality of output and input over all byte strings that parse; tests choose canonical inputs, and fuzzing samples", "anchors": ["src/lib.rs DekuContainerRead::from_bytes, DekuContainerWrite::to_bytes", "deku-derive/src/macros/deku_read.rs", "deku-derive/src/macros/deku_write.rs", "src/impls/primitive.rs", "src/impls/vec.rs"]}
{"id": "C51", "title": "deku_id is the id on the wire", "statement": "For a value of a derived enum, deku_id gives exactly the id its variant declares and IdVariantNotFound for every variant that declares none. It is what to_writer writes in front of the fields, and it equals the id that was read, unless the variant was taken as the default for an unknown id. (It is an error for variants identified by their discriminant although an id is read and written for them.)", "quantifier": "every enum type, variant, value, context, input, reader state and sink", "why_tests_cant": "relates three generated functions (deku_id, from_reader, to_writer) over all enums and inputs; tests check deku_id of a few values", "anchors": ["src/lib.rs DekuEnumExt::deku_id", "deku-derive/src/macros/deku_read.rs", "deku-derive/src/macros/deku_write.rs"]}
{"id": "C52", "title": "Writing never panics", "statement": "Writing a value of a derived type with to_bytes, to_slice, to_bits or to_writer never panics and ends: whatever the value, the bit orders of the fields, the sink (full, failing at any call, not seekable) and the position inside a byte. Without seeks and into a growing sink the only errors are InvalidParam (a value does not fit its field) and Assertion. What was read from untrusted input can be written. (Sizes of 0 bits and seek offsets that do not convert panic.)", "quantifier": "every type without 0-bit sizes and failing seek conversions, every value of it, every context, sink with any fault schedule, and writer state between two writes; hand-written writers that return at the first error included", "why_tests_cant": "absence of panics over all values, mixed bit orders and I/O fault schedules", "anchors": ["src/writer.rs", "src/impls/primitive.rs", "src/lib.rs DekuContainerWrite", "deku-derive/src/macros/deku_write.rs"]}
{"id": "C53", "title": "Recursive types", "statement": "Types that contain themselves through Box, Arc or Vec (also mutually, also with generic contexts) are written and read back like other types: the bytes are the format of the nested value, reading gives the value back, and an input that was read is written back unchanged. If at least one bit is consumed before each inner value, reading any input ends with a value or an error, using at most one nested call per bit of input, and a larger stack never changes the result. A value that is nested d deep is written, or refused with an error, on a stack with room for d calls; so a value that was read, which is never nested deeper than the input has bits, can be written on the stack it was read on. (There is no limit on the nesting: some input exhausts any stack. A type that consumes nothing before its inner value exhausts it on every input, and an Option does not end a recursion.)", "quantifier": "every family of mutually recursive types, value of any nesting depth, input, stack size", "why_tests_cant": "values of unbounded depth; termination for all inputs; independence of the stack size", "anchors": ["src/impls/boxed.rs", "src/impls/arc.rs", "src/impls/vec.rs", "deku-derive/src/macros/deku_read.rs", "deku-derive/src/macros/deku_write.rs"]}
{"id": "C54", "title": "The build without the feature `bits` agrees", "statement": "A type that can be declared without the cargo feature `bits` means the same format in both builds: to_bytes and to_slice give the same bytes or the same error, from_bytes and TryFrom accept the same inputs with the same value and the same rest. Without padding attributes also from_reader is the same on every source, errors included.", "quantifier": "every type declarable without the feature, every value, input and buffer; for from_reader every source with any fault schedule", "why_tests_cant": "two builds of the library over all types and inputs; CI tests each build separately", "anchors": ["src/reader.rs", "src/writer.rs", "src/impls/primitive.rs", "deku-derive/src/macros/deku_read.rs", "deku-derive/src/macros/deku_write.rs", "Cargo.toml features"]}
{"id": "C55", "title": "The size in Incomplete can be relied on to wait for more input", "statement": "Every Incomplete error asks for at least one bit; a read that failed with it succeeds once as many bits as it asked for have arrived; and a program that receives its input in pieces, on Incomplete waits for byte_size() more bytes (or what there is) and tries again, comes to an end after at most as many tries as there are bytes, with exactly the value or error that the whole input gives. The size is not the number of missing bits.", "quantifier": "for all types (attributes, nesting, read_all and seeks included for the first part), inputs, cut points and reader states; hand-written readers that return at the first error included", "why_tests_cant": "a size of 0 at one of a dozen places that construct the error makes a receive loop spin forever; tests check the size for a few types and cut points, not that the loop ends for every type and every cut", "anchors": ["src/error.rs:8-31", "src/reader.rs:152-173,234-524", "src/impls/vec.rs:13-43", "deku-derive/src/macros/deku_read.rs:128-148,1041-1071"]}
{"id": "C56", "title": "The derive macros accept exactly the consistent declarations and ignore nothing", "statement": "A declaration is rejected at compile time if and only if its attributes break one of the stated rules (at most one limit, at most one seek, bits or bytes, default only with skip or cond, id or id_type, a usable id for every variant, one default variant, ...). What is accepted has an effect: the limit, seek and padding of a field are those written; DekuRead and DekuWrite give an accepted declaration the same meaning; the feature `bits` does not change the meaning of a declaration that does not need it; every variant of an enum accepted for writing has an id to write; the field that takes the id has no attributes that would get lost.", "quantifier": "for all declarations: structs and enums, any number of fields and variants, any combination of attributes, both macros, with and without the feature `bits`", "why_tests_cant": "the combinations of some thirty attributes; compile-fail tests check a dozen pairs, and only with the default features; an attribute that is accepted and ignored produces no error at all", "anchors": ["deku-derive/src/lib.rs:414-493,713-766,821-901,963-983", "deku-derive/src/macros/deku_read.rs:46-90,235-297,683-918", "deku-derive/src/macros/deku_write.rs:217-320", "deku-derive/src/macros/mod.rs:323-395"]}
{"id": "C57", "title": "Everything at once for plain declarations: a format, its exact inverse, and no panics", "statement": "For a struct or enum whose attributes are constants or names of earlier fields (integers and NonZero integers with endian and bits, bool, arrays, pairs, CString, nested structs and enums with ids, magic, padding, count = \"field\", cond = \"*field\", until = \"|x| *x == number\"), and which meets a list of conditions that can be checked by computation: every value whose numbers fit their bits and whose counts, flags and last elements are right is written in the format read off the declaration and is read back from it; no format is the beginning of another; reading any input from any source returns such a value or Parse or Incomplete (or, where the source cannot seek, the error that says so) and never panics; TryFrom accepts a byte string if and only if it is the format of such a value with any bits in place of the padding, and returns that value; any value of the type, also with wrong counts, flags and last elements, is written in the format if its numbers fit their bits and is refused with InvalidParam if not; a program that waits for what Incomplete asks for gets the same result as from the whole input.", "quantifier": "for all plain declarations (any nesting, any number of fields and variants), all values, all inputs, all sources that do not fail, all ways in which the input is cut into pieces", "why_tests_cant": "the declarations, values and inputs are unbounded; the claim is an equivalence between the set of accepted inputs and the set of formats, of which tests can sample either side only", "anchors": ["deku-derive/src/macros/deku_read.rs:30-297,683-1071", "deku-derive/src/macros/deku_write.rs:30-320,560-860", "deku-derive/src/lib.rs:414-493,821-901", "src/impls/primitive.rs", "src/impls/vec.rs:120-228", "src/impls/bool.rs", "src/impls/option.rs", "src/impls/slice.rs", "src/reader.rs", "src/writer.rs", "src/impls/nonzero.rs", "src/impls/cstring.rs", "src/impls/tuple.rs"]}
{"id": "C58", "title": "Every error has a cause a user can point at", "statement": "For types whose code is all derived: reading returns Incomplete or Parse, or Assertion and then some field has an assertion that can fail, or InvalidParam and then some field has padding whose size can be negative or too large, or Io and then the source reported that very error in one of the calls made, or refused a seek that an attribute asks for (seek attributes; on a source that cannot seek also padding and counted Vec<u8>), or the very error returned by a map function of some field; never IdVariantNotFound. From a byte slice, Io occurs only as a seek before the start. Writing returns Assertion only with an assertion that can fail, InvalidParam only with a declared bit or byte size or such padding, Io only if the sink reported it, is full, or refused a seek; never Incomplete, Parse or IdVariantNotFound. A type with none of these attributes cannot fail to be written to a Vec, and to a slice only for lack of room. update returns only errors of the update expressions of the type's own fields; deku_id only IdVariantNotFound.", "quantifier": "for all types (any nesting of structs, enums and containers, any attribute expressions), all inputs and values, all sources and sinks with any pattern of failures", "why_tests_cant": "that an error never occurs without its cause is a statement about all inputs and all failure patterns; a test sees one error at a time and cannot show the absence of others", "anchors": ["src/error.rs:1-207", "src/reader.rs", "src/writer.rs", "src/noseek.rs:42-52", "deku-derive/src/macros/deku_read.rs:30-400,549-1008", "deku-derive/src/macros/deku_write.rs:30-406,466-860", "deku-derive/src/macros/deku_read.rs:322-332", "src/impls/primitive.rs", "src/impls/vec.rs"]}
{"id": "C59", "title": "Messages can be read one after another from one source", "statement": "T::from_reader((&mut source, 0)) can be called again and again on one source. A successful call reads nothing ahead: the source then stands ceil(n/8) bytes further, where n is the returned number of bits. The result, also an error, depends only on the bytes from the source's position on, not on what lies before. If a message ends between two bytes, the next call reads what one reader reads for both, and any number of calls gives the elements of an array. Values written by to_bytes and sent one after another are received by as many calls, wherever the source stands and whatever follows them.", "quantifier": "for all derived types without seek attributes and with pads shorter than a byte, all sources that do not fail, all positions, all inputs, any number of messages", "why_tests_cant": "the position after a call and the independence of what lies before it hold for all types, positions and inputs; a test reads a few messages of one type, usually from the start of the source", "anchors": ["src/reader.rs:43-60", "src/reader.rs:226-290", "deku-derive/src/macros/deku_read.rs:115-126", "deku-derive/src/macros/deku_read.rs:404-415", "src/lib.rs:196-260"]}
{"id": "C60", "title": "Values can be written one after another to one sink, and read back", "statement": "A value written with to_writer and finalize to a sink at any position is stored as the bytes of to_bytes over what was there; the bytes before and behind are kept and the sink then stands behind the value. A sink of fixed size takes the bytes that fit and reports WriteZero if not all do. An error of to_bytes is the error here. Any number of values written so are stored one after another, and from_reader, called as often on a source with these bytes from the same position, returns exactly these values and ends where the sink stood.", "quantifier": "for all derived types without seek attributes, all values, all sinks that do not fail with any contents and at any position, any number of values; for reading back, the types and values of C28 with pads shorter than a byte", "why_tests_cant": "that nothing outside the stored range changes and that the position is right holds for every type, value, content and position; tests write to an empty Vec", "anchors": ["src/writer.rs:59-140", "src/writer.rs:330-390", "src/lib.rs:700-780", "deku-derive/src/macros/deku_write.rs:60-160", "src/noseek.rs:100-130"]}
{"id": "C61", "title": "HashMap and HashSet fields keep the last entry for each key and round-trip in any iteration order", "statement": "A HashMap or HashSet field of a derived struct reads exactly the elements that a Vec with the same count, bytes_read, bits_read, until or read_all would read, and then holds each key once, with the entry that came last. A struct whose length field is set by update writes its HashMap or HashSet in whatever order the hasher yields; in every order the output has the same length and reads back as the same collection, also with other bytes behind it.", "quantifier": "for all structs, element types, limits, inputs and entries; all iteration orders of the collection; for the round trip all entries with different keys whose format does not depend on where they stand", "why_tests_cant": "the order depends on the hasher and, with the default one, on the run: a test sees one order; duplicates and limits range over all inputs", "anchors": ["src/impls/hashmap.rs:18-67", "src/impls/hashmap.rs:69-242", "src/impls/hashset.rs:18-65", "src/impls/hashset.rs:67-211", "deku-derive/src/macros/deku_read.rs:817-905"]}
{"id": "C62", "title": "The declarations in examples/ implement the formats they stand for, on every input", "statement": "Both derive macros accept the declarations of the IPv4 header, the 802.11 frame control field, the enum, the default-variant enum, the read_all struct, the hand-written reader and writer and the struct of example.rs. Every input long enough is read as the value its bytes stand for in the documented layout, leaves exactly the bytes behind it, and is written back byte for byte; every input too short gives Incomplete; a reserved id gives Parse and a failed assert_eq gives Assertion. Every IPv4 header whose fields fit their widths is written as the 20 bytes that stand for it.", "quantifier": "for all inputs of any length, and for the IPv4 header all field values", "why_tests_cant": "each example asserts one input; the layouts have up to 2^160 values and inputs of every length", "anchors": ["examples/ipv4.rs:24-48", "examples/80211.rs:6-49", "examples/read_all.rs:5-9", "examples/enums.rs:8-35", "examples/enums_catch_all.rs:6-21", "examples/custom_reader_and_writer.rs:8-58", "examples/example.rs:12-41"]}
{"id": "C63", "title": "deku::bit_offset and deku::byte_offset are the position of the field", "statement": "In every expression of a field (count, cond, ctx, assert, default, map, reader and so on) deku::bit_offset is, on reading, the number of bits of the input in front of the value of the field: everything before it with its own seek, magic and padding, counted from where the reader started, also in nested types. On writing it is the number of bits in front of the value, and deku::byte_offset is that number of bits divided by 8.", "quantifier": "for all structs and enums, all fields and variants and field attributes, all inputs and bit positions, all values", "why_tests_cant": "the offset depends on the sizes of all fields before it; a test fixes one layout and one input", "anchors": ["deku-derive/src/macros/deku_read.rs:573-600", "deku-derive/src/macros/deku_read.rs:668-726", "deku-derive/src/macros/deku_read.rs:990-996", "deku-derive/src/macros/deku_write.rs:514-541", "deku-derive/src/macros/deku_write.rs:694-703", "deku-derive/src/macros/deku_write.rs:844-850", "src/lib.rs:436-464"]}
{"id": "C64", "title": "Byte orders of containers and contexts, byte padding and discriminants mean what is spelled out", "statement": "A declaration with a byte order for the whole struct or enum, with a byte order handed on by ctx (with or without ctx_default), with pad_bytes_before and pad_bytes_after, and with discriminants and a repr in place of ids does the same as the declaration in which every number has its own byte order (that of its field, else that of its container, which may be the one handed to it, else the ctx_default), all padding is in bits, and every variant has an id: every input gives the same result from from_bytes, TryFrom and from_reader, every value the same from to_bytes, to_bits and to_slice. So what C57 says holds for such declarations.", "quantifier": "for all such declarations (any nesting, any mixture of the ways to give a byte order), all inputs, sources and values", "why_tests_cant": "the byte order that reaches a number depends on all the containers around it; tests check one nesting at a time", "anchors": ["deku-derive/src/macros/mod.rs:175-395", "deku-derive/src/macros/deku_read.rs:30-297,640-790", "deku-derive/src/macros/deku_write.rs:30-320,620-860", "deku-derive/src/lib.rs:414-493", "src/attributes.rs:40-110"]}
{"id": "C65", "title": "Readers and writers on variants are used in place of the body, and of the id on writing", "statement": "In an enum some of whose variants have reader and writer attributes, the magic and the id are read as in any enum. If the variant chosen by the id has a reader, the result is what that reader gives from there on. On writing, the magic is followed by exactly what the writer of the variant writes, the id included. Variants without the attributes are read and written as if no variant had any. A value of any type that contains such an enum is read back from the bytes written for it, with the rest of the input left, if the writer writes an id that selects the variant followed by what its reader reads, and its deku_id is the declared id.", "quantifier": "for all enums (any id type, patterns, default, ctx, magic), all readers and writers, all types around them, all values and inputs", "why_tests_cant": "the reader and writer are arbitrary code, and how they are combined with the id, the magic and the other variants is decided by generated code; tests show one of each", "anchors": ["deku-derive/src/macros/deku_read.rs:237-377,505-513", "deku-derive/src/macros/deku_write.rs:239-356", "deku-derive/src/lib.rs:913-935", "src/attributes.rs:62-63"]}
{"id": "C66", "title": "Reading an array is memory safe and drops what it has read on an error", "statement": "Reading [T; N] uses no uninitialised memory, whatever the reader of T does. If N elements are read, they are returned in order and none is dropped. If reading an element fails, each element read before it is dropped exactly once, and no other. If it panics, none is dropped.", "quantifier": "for all N, all element types and readers (also hand-written ones), all states of the reader", "why_tests_cant": "a test would have to fail at every index of every N and count the drops; undefined behaviour may not show at all", "anchors": ["src/impls/slice.rs:9-47"]}
{"id": "C67", "title": "Errors keep their meaning as std::io::Error", "statement": "An error converted to std::io::Error has the kind UnexpectedEof only if the input ended too early (or the source said so), InvalidData only for values that cannot be parsed or failed assertions, InvalidInput only for impossible sizes and positions and values that do not fit, WriteZero only if the slice is too short; the error of deku can be got back from it; byte_size of Incomplete is the least number of bytes that has its bits; and the chain of causes of an error is finite.", "quantifier": "for all types without hand-written readers and writers and with map functions that do not fail, all inputs, values, sources and buffers", "why_tests_cant": "which errors can occur for which inputs and declarations is a question about all of them", "anchors": ["src/error.rs:14-32,147-221"]}
{"id": "C68", "title": "update makes a value consistent, so that it is received as it was sent", "statement": "In a struct or enum of the kind of C57 in which every count has update = \"self.x.len()\", update sets every count to the length of what it counts and changes nothing else; it fails, with Parse, exactly if one of the lengths does not fit the type of its count; a second update changes nothing. So a value that is right but for its counts becomes, by update, a value that is written and read back unchanged. The attribute does not change how anything is read or written.", "quantifier": "for all such declarations (any number of counts and fields, any nesting), all values, all inputs", "why_tests_cant": "the counts, lengths and declarations are unbounded, and what update has to repair depends on the value", "anchors": ["deku-derive/src/macros/deku_write.rs:157-166,411-424,472-512", "src/attributes.rs:1157-1210"]}
{"id": "C69", "title": "Bit fields are cut from one number", "statement": "A struct of unsigned integers, each with or without bits = n. With bit_order = \"lsb\" (and little-endian) the fields are the bits of the little-endian number of the bytes, the first field lowest, as bit fields of C are on a little-endian machine; with endian = \"big\" they are the bits of the big-endian number, the first field highest. Reading shifts and masks that number; writing adds the values up at their places and fills the last byte with zeros; an input with one bit too few is Incomplete; a value with more bits than its field is InvalidParam.", "quantifier": "for all such structs (any number of fields, of any sizes, at any offsets), all inputs and all values", "why_tests_cant": "the sizes and offsets of the fields and with them the ways a field crosses bytes are unbounded in combination, and so are the values", "anchors": ["src/impls/primitive.rs:58-1239", "src/reader.rs:236-455,574-700", "src/writer.rs:75-402", "deku-derive/src/macros/mod.rs:289-340"]}
{"id": "C70", "title": "The byte order of the machine matters only where none is given", "statement": "A type whose every number of more than one byte has a byte order (at the field or inherited from its struct or enum) reads and writes the same on a big-endian and on a little-endian machine, values, errors and remaining input alike. Where a declaration gives no byte order, it behaves on a machine exactly as the declaration with that machine's byte order written out does on every machine; so its format on any machine is known, and try_from accepts exactly the inputs of that format.", "quantifier": "for both byte orders of the machine, all derived types of the model (the second part: all plain declarations of C57), all inputs, starting bits and sources without I/O errors, all values", "why_tests_cant": "a test runs on the machine it is built for; the declarations, inputs and values are unbounded", "anchors": ["src/ctx.rs:31-63", "src/impls/primitive.rs:725-794", "src/impls/primitive.rs:1222-1292", "src/impls/primitive.rs:58-1215", "deku-derive/src/macros/mod.rs:190-330"]}
{"id": "C71", "title": "The attributes endian, bits, bytes and bit_order are shorthand for ctx", "statement": "Take any type and replace on every field, at every depth, endian, bits, bytes and bit_order (its own or inherited from its struct or enum) by the corresponding leading arguments of ctx, and the byte order of an enum by id_endian. The result reads and writes the same as the original: values, errors, panics, what is left of the input, what is in the output, with any arguments and from any state; update and deku_id are the same as well. A struct declaration that is accepted is still accepted when it is so rewritten.", "quantifier": "for all derived types, readers, values, arguments, sources, sinks, starting bits; all struct declarations, with and without the feature bits", "why_tests_cant": "the rewriting changes every field of a declaration, and declarations, inputs and values are unbounded; a test compares one pair of declarations on chosen inputs", "anchors": ["src/attributes.rs:1814-1848", "deku-derive/src/macros/mod.rs:190-330", "deku-derive/src/macros/deku_read.rs:770-800", "deku-derive/src/macros/deku_write.rs:735-760", "deku-derive/src/macros/deku_size.rs:23-101"]}
{"id": "C72", "title": "An optimised build does the same wherever the debug build does not panic", "statement": "Compile the same declarations with and without debug assertions and overflow checks. Wherever the debug build does not panic, the optimised build gives the same result: value, error, what is left of the input, the state of the source, what is in the output, the buffer of to_slice. The optimised build panics only where the debug build does. So the types that read any input without panicking do so in an optimised build too, and simple declarations have the same format in both.", "quantifier": "for all derived types, arguments, readers, sources, inputs, starting bits, values, writers, buffers", "why_tests_cant": "tests run in one of the two builds, usually the debug one; the inputs on which wrapping arithmetic or a missing assertion matters are the extreme ones that tests leave out", "anchors": ["src/reader.rs:181-240", "src/reader.rs:475-570", "src/writer.rs:75-109", "src/writer.rs:112-413", "src/impls/primitive.rs:168-381", "src/impls/vec.rs:20-175", "deku-derive/src/macros/deku_read.rs:822-1005"]}
{"id": "C73", "title": "A nested struct, tuple or array is its parts written as fields", "statement": "Moving fields into a struct of their own, or writing neighbouring fields as a tuple or an array, does not change the format. A field whose type is a struct, a tuple or an array and which only hands on arguments (endian, bit_order, bits, bytes, ctx) is read and written exactly as its parts written as fields in its place, each with those arguments: the same values put together, the same errors, the same rest, the same bytes; later fields that use the nested field see it built from the parts, and the nested fields see the ctx they are handed. The sizes of DekuSize agree as well if the field has no bits or bytes of its own. A struct with one field is that field.", "quantifier": "for all structs, fields before and after, nested structs, component and element types, arguments, readers, inputs, values, writers, buffers", "why_tests_cant": "a test compares one nested declaration with one flat one; the claim is over every declaration, every position of the nested field and every use of it by other fields", "anchors": ["deku-derive/src/macros/deku_read.rs:45-148", "deku-derive/src/macros/deku_read.rs:633-1005", "deku-derive/src/macros/deku_write.rs:60-170", "deku-derive/src/macros/deku_write.rs:600-842", "deku-derive/src/macros/mod.rs:289-321", "src/impls/tuple.rs:40-102", "src/impls/slice.rs:20-99"]}
{"id": "C74", "title": "Memory asked for while reading is bounded", "statement": "Reading untrusted input asks for no more memory than the input and the counts of the type justify, whether the read succeeds or fails. If no count except those of fields that are a Vec<u8> occurs, the memory is at most a fixed number of bytes per byte of input, the number being computed from the type (the sizes of the elements of its collections): a bogus length in front of a Vec<u8> asks for nothing. If counts occur, the bound grows by what the largest possible count asks for, a number computed from the type and that count; the input adds the same fixed number of bytes per byte.", "quantifier": "for all types safe in the sense of C49 that do not seek, all bounds on the counts, all inputs, start bits and sources that do not fail", "why_tests_cant": "a test observes the memory of one input; the claim is over every input, in particular over hostile ones that no test names, and over every type", "anchors": ["src/impls/vec.rs:13-110", "src/impls/vec.rs:113-190", "src/impls/hashmap.rs:18-67", "src/impls/hashset.rs:18-65", "src/impls/cstring.rs:25-67", "src/impls/slice.rs:20-99", "src/impls/boxed.rs:21-75", "deku-derive/src/macros/deku_read.rs:775-918"]}
{"id": "C75", "title": "Enum variants can be added at the end", "statement": "If a new version of a declaration differs from the old one only by variants added at the end of enums, at any depth, none of which has a default variant: everything the old version reads the new version reads to the same value, rest and state; everything the new version reads the old version reads to the same value or refuses with Parse, so it never takes a message for another one, and a message with a new variant in it is refused; values of the old version are values of the new one and are written to the same bytes, have the same deku_id and are updated alike.", "quantifier": "for all pairs of declarations, inputs, start bits, sources (failing ones included), values and sinks", "why_tests_cant": "compatibility is a statement about every message of a declaration and about every way to extend it, also inside vectors, options and other containers; tests compare single messages", "anchors": ["deku-derive/src/macros/deku_read.rs:237-377", "deku-derive/src/macros/deku_write.rs:219-356", "src/impls/vec.rs:45-84"]}
{"id": "C76", "title": "Assertions only refuse", "statement": "A declaration with assert and assert_eq attributes reads and writes exactly as the same declaration without them, value, rest, position and error alike, except that it may return the error Assertion instead; and a struct whose values pass its assertions is not refused by them.", "quantifier": "for all declarations, inputs, start bits, sources (failing ones included), values and sinks", "why_tests_cant": "the comparison is between two programs on every input; the position of the check among padding, seeks and conditions matters only for inputs that no test lists", "anchors": ["deku-derive/src/macros/deku_read.rs:741-759", "deku-derive/src/macros/deku_read.rs:990-1008", "deku-derive/src/macros/deku_write.rs:710-730", "deku-derive/src/macros/deku_write.rs:844-859"]}
{"id": "C77", "title": "A failing sink keeps a prefix and its error is reported", "statement": "Sending a value (to_writer, then finalize) to a sink any of whose calls may fail, after taking some of the bytes: the sink then holds a prefix of the bytes of to_bytes over its old contents; the result is Ok exactly if all of them are stored and no call failed; otherwise it is the error of the first failed call, after which the sink is not called again, or WriteZero from a sink of fixed size that is full. An error of the value itself is reported as it is unless the sink failed before.", "quantifier": "for all sinks (any pattern of failing calls, errors and partial writes, any contents, position and size), declarations without seek attributes (hand-written writers that do not seek included), and values", "why_tests_cant": "the failures can happen at any call of any message, also while bits of a byte are pending; a test injects one failure into one message", "anchors": ["src/writer.rs:48-420", "src/lib.rs:672-678", "deku-derive/src/macros/deku_write.rs:18-218"]}
{"id": "C78", "title": "Fields can be added at the end", "statement": "If the new version of a struct or enum has more fields at the end (of the struct, or of any variants): where the old version fails to read, the new one fails with the same error at the same place; where both read a value, the old version has the old fields of it; and the whole bytes of an old message are the first bytes of the new message with the same old fields, so old programs read new messages with from_bytes or from_reader.", "quantifier": "for all declarations, added fields, sources (failing ones included), start bits, inputs and values", "why_tests_cant": "compatibility is a statement about all messages and all ways to extend a declaration; tests compare single messages", "anchors": ["deku-derive/src/macros/deku_read.rs:18-235", "deku-derive/src/macros/deku_write.rs:18-218", "deku-derive/src/macros/deku_read.rs:237-377"]}
{"id": "C79", "title": "A failing source gives an error, not a panic or a hang", "statement": "Reading a value from a source any of whose calls may fail, with any error, never panics: it returns an error or a value of the type, and if only finitely many calls fail it returns after a number of steps linear in the input and the number of those calls.", "quantifier": "for all sources (any contents, any pattern of failing calls and errors, seekable or not), bit offsets below 8, and safe declarations (C49) without padding of a byte or more within the elements of a vector, hand-written readers being any that read and stop at the first error", "why_tests_cant": "the failures can happen at any call of any read, and some are swallowed, which puts the reader out of step with its source; a test injects one failure into one message", "anchors": ["src/reader.rs:152-173", "src/reader.rs:236-377", "src/reader.rs:45-60", "src/reader.rs:181-219", "src/impls/vec.rs:17-191", "deku-derive/src/macros/deku_read.rs:18-420"]}
{"id": "C80", "title": "It does not matter how a source or sink cuts its bytes into pieces", "statement": "A value read from a source whose reads return fewer bytes than asked for and are interrupted is the one read from a source that gives every byte asked for at once, with the same error otherwise, and the source is left at the same place; the same holds of the bytes stored in a sink that takes them in pieces. A source or sink that also fails acts like one whose whole calls fail, part of their bytes transferred.", "quantifier": "for all types (hand-written ones that use the methods of Reader and Writer included), contents, positions, patterns of short transfers, interruptions and errors (finitely many interruptions in a row), seekable or behind NoSeek", "why_tests_cant": "the pieces in which a socket delivers a message vary from run to run; tests read from cursors, which have everything at once", "anchors": ["src/reader.rs:152-173", "src/reader.rs:236-377", "src/reader.rs:379-465", "src/writer.rs:60-413", "src/noseek.rs:25-100"]}
{"id": "C81", "title": "Messages put one behind another can be taken apart in one way only", "statement": "No message of a type starts with the message of another value of it, so a file of messages put one behind another is the file of one list of values only.", "quantifier": "for all types, values that the format of C28 has a place for (read_all is outside: its values have no end of their own), bytes that follow, and lists of non-empty messages", "why_tests_cant": "a collision is between two of infinitely many values, or two lists of them; a test compares the few it has", "anchors": ["deku-derive/src/macros/deku_read.rs:18-420", "deku-derive/src/macros/deku_write.rs:18-330", "src/lib.rs:640-760"]}
{"id": "C82", "title": "The integer type of a field with a size does not matter to the wire", "statement": "A field (or enum id) whose size in bits or bytes is given can be declared with any unsigned integer type that has room for the size: both declarations read the same values, with the same errors and the same end, from every source, and write the values of their format to the same bytes. The same holds for signed integers with a size in bits: both types read the same number and write it to the same bits, or both refuse it.", "quantifier": "for all declarations, nested, in arrays and vectors, with any other attributes, all sources, inputs and values; sizes may depend on other fields", "why_tests_cant": "sizes, types, positions and inputs multiply; a test has one declaration of each", "anchors": ["src/impls/primitive.rs:1-1050", "src/impls/nonzero.rs:1-60", "deku-derive/src/macros/mod.rs:252-330", "deku-derive/src/macros/deku_read.rs:500-900"]}
{"id": "C83", "title": "SIZE_BITS of input is enough to read, and exactly that is taken", "statement": "For a type that derives DekuSize: reading a message takes exactly SIZE_BITS bits (at most that, with enums or conditional fields), the rest starts right after it, no input of at least SIZE_BITS bits makes a read ask for more, and try_from accepts inputs of exactly SIZE_BYTES bytes only.", "quantifier": "for all declarations with constant pads and sizes on integers, nested, and all inputs and starting bits", "why_tests_cant": "every position and byte decides what is read next; a test reads a few messages of a few types", "anchors": ["src/lib.rs:780-820", "deku-derive/src/macros/deku_size.rs:1-352", "deku-derive/src/macros/deku_read.rs:100-1071", "src/reader.rs:1-700"]}
{"id": "C84", "title": "Count, length in bits and length in bytes mean the same for elements of one size", "statement": "For a collection whose elements all have the size n: count = f, bits_read = f * n and bytes_read = f * n / 8 give the same value, the same rest and the same errors on every input; a vector with a constant count reads like an array.", "quantifier": "for all structs with a collection and any fields before and after it, all element types with a size, all expressions f over earlier fields, all sources", "why_tests_cant": "the lengths come from the input; a test tries a few of them", "anchors": ["src/impls/vec.rs:45-191", "src/impls/slice.rs:9-47", "src/impls/hashmap.rs:18-196", "src/impls/hashset.rs:18-177", "deku-derive/src/macros/deku_read.rs:775-918"]}
{"id": "C85", "title": "A field of fixed size can be patched in place", "statement": "Two values of a struct that differ in one field of fixed size: their messages have the same length and all bytes without a bit of that field are the same, if no other field uses it. The fields before and after it can be of any kind.", "quantifier": "for all structs with a format as in C28 (temp fields, vectors, conditions, enums), both bit orders, all values", "why_tests_cant": "which bytes change depends on every later field; a test patches a few values of a few structs", "anchors": ["deku-derive/src/macros/deku_write.rs:1-700", "deku-derive/src/macros/deku_size.rs:23-101", "src/writer.rs:1-500", "src/lib.rs:600-690"]}
{"id": "C86", "title": "The order of enum variants does not matter if their ids do not overlap", "statement": "For an enum in which no id belongs to two variants and at most one is the default: with the variants declared in another order, reading gives the same variant with the same fields, the same rest and the same errors from every input; writing, deku_id, update and SIZE_BITS are the same even if ids overlap.", "quantifier": "for all enums, all reorderings, all sources, inputs, starting bits and values", "why_tests_cant": "the id comes from the input and patterns are arbitrary predicates; a test tries a few ids", "anchors": ["deku-derive/src/macros/deku_read.rs:200-400", "deku-derive/src/macros/deku_write.rs:219-410", "deku-derive/src/macros/deku_size.rs:264-352"]}
{"id": "C88", "title": "Declarations that say the same in other words behave alike", "statement": "assert_eq beside the assert with ==, cond = \"true\" beside no cond, skip with a false condition beside no skip, skip(read) with a condition beside cond with its negation, a map that changes nothing, padding after a field beside padding before the next in the same bit order without a magic between them, the magic of a struct beside the magic of its first field without a seek: replacing one by the other anywhere inside a type, also several times, changes neither what is read from any source nor what is written, nor the errors, nor what update computes. The sizes are the same if no field is temp.", "quantifier": "for all derived types, all chains of the listed rewordings at any depth, all sources, inputs, values and buffers", "why_tests_cant": "the rewordings nest without bound, inside arrays, vectors, options and enum variants, and both sides have to agree on every input, failing source and buffer", "anchors": ["deku-derive/src/macros/deku_read.rs:700-965", "deku-derive/src/macros/deku_write.rs:640-862", "deku-derive/src/macros/deku_size.rs:23-101", "deku-derive/src/lib.rs:160-206"]}
{"id": "C87", "title": "Targets with a narrower usize read and write the same, or refuse", "statement": "On a target whose usize has at most 64 bits, reading any input and writing any value of a type without usize fields gives exactly what a 64-bit target gives, or is refused: reading with a panic, Parse or InvalidParam, writing with InvalidParam. Whatever the narrow target reads, a 64-bit target reads alike. The values are not truncated. If every count, length and padding fits the narrow usize whatever the fields before it hold, a type safe in the sense of C49 is read exactly alike and without a panic, and a value whose paddings fit is written exactly alike. A count, length or padding that does not fit is refused, not truncated.", "quantifier": "for all widths up to 64 bits, all derived types, all sources, inputs, values and buffers", "why_tests_cant": "tests run on the machine of the developer; a test for another width needs another machine and a particular input", "anchors": ["src/impls/vec.rs:13-191", "deku-derive/src/macros/deku_read.rs:603-628", "deku-derive/src/macros/deku_read.rs:775-918", "deku-derive/src/macros/deku_write.rs:544-580"]}
