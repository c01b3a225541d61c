{
 "claims": [
  {
   "property": "C01",
   "status": "proved",
   "theorems": [
    "C01_msb0_reads_follow_input"
   ],
   "note": "Every successful session of Msb0 calls, from every reachable reader state over a source that does not fail."
  },
  {
   "property": "C02",
   "status": "proved",
   "theorems": [
    "C02_lsb0_reads_follow_input"
   ],
   "note": "Same as C01 for Lsb0."
  },
  {
   "property": "C03",
   "status": "proved",
   "theorems": [
    "C03_mixed_orders_refine",
    "C03_mixed_orders_conserve"
   ],
   "note": "Refinement to the double-ended bit queue of Spec.v and conservation of bits, orders mixed freely."
  },
  {
   "property": "C04",
   "status": "proved",
   "theorems": [
    "C04_fast_path_is_generic"
   ],
   "note": "Full equality of value and final state with the generic bit read, 1 to 64 bits."
  },
  {
   "property": "C05",
   "status": "proved",
   "theorems": [
    "C05_bits_read_exact"
   ],
   "note": "On every source, also failing ones, and for callers that carry on after errors."
  },
  {
   "property": "C06",
   "status": "partial",
   "theorems": [
    "C06_short_input_partial",
    "C06_zero_byte_read_refuted"
   ],
   "note": "Proved except for byte reads of length zero, which panic after end(): C06_zero_byte_read_refuted."
  },
  {
   "property": "C07",
   "status": "proved",
   "theorems": [
    "C07_appended_input"
   ],
   "note": "Sessions of reads of supported sizes."
  },
  {
   "property": "C08",
   "status": "partial",
   "theorems": [
    "C08_end_flag",
    "C08_end_transparent_partial",
    "C08_end_then_skip_refuted",
    "C08_end_then_empty_read_refuted"
   ],
   "note": "Proved for every continuation of reads; false for skips and zero-byte reads after end()."
  },
  {
   "property": "C09",
   "status": "partial",
   "theorems": [
    "C09_skip_is_read_partial",
    "C09_short_skip_partial",
    "C09_skip_peeked_refuted",
    "C09_skip_past_end_refuted",
    "C09_skip_noseek_refuted",
    "C09_skip_offset_refuted",
    "C09_skip_after_failure_refuted"
   ],
   "note": "Proved for seekable sources read from position 0 without a peeked byte, and for short skips everywhere; false past the end of input, with a peeked byte, on NoSeek sources, on sources already advanced, and after a failed read."
  },
  {
   "property": "C10",
   "status": "partial",
   "theorems": [
    "C10_no_fault_no_effect",
    "C10_fault_reported_partial",
    "C10_bit_read_refuted",
    "C10_end_refuted"
   ],
   "note": "Fault-free behaviour is unaffected and integer reads, aligned byte reads and sub-byte reads report every fault; bit reads of whole bytes and end() turn faults into zeros (refuted)."
  },
  {
   "property": "C11",
   "status": "proved",
   "theorems": [
    "C11_msb0_writes_concatenate"
   ],
   "note": "Any sequence of Msb0 bit writes, byte writes and integer writes, from any reachable writer with Msb0 pending order and a sink that accepts everything."
  },
  {
   "property": "C12",
   "status": "partial",
   "theorems": [
    "C12_lsb0_writes_concatenate_partial",
    "C12_lsb0_first_write_refuted"
   ],
   "note": "Proved when the pending order is Lsb0 or the first write has at most 8 bits; refuted for a longer first Lsb0 write on a fresh writer (bytes come out in the wrong order)."
  },
  {
   "property": "C13",
   "status": "proved",
   "theorems": [
    "C13_writer_total_and_conserving",
    "C13_after_io_error_refuted"
   ],
   "note": "For sinks that accept everything. A refutation shows that a caller carrying on after an I/O error can hit a panic."
  },
  {
   "property": "C14",
   "status": "proved",
   "theorems": [
    "C14_write_fast_path_is_generic"
   ],
   "note": "Same bytes, position, pending bits, order and bits_written; the number of I/O calls differs by design."
  },
  {
   "property": "C15",
   "status": "proved",
   "theorems": [
    "C15_finalize_pads"
   ],
   "note": ""
  },
  {
   "property": "C16",
   "status": "partial",
   "theorems": [
    "C16_msb0_round_trip",
    "C16_lsb0_round_trip_partial",
    "C16_lsb0_first_write_refuted"
   ],
   "note": "Msb0 proved in full (bits, bytes, integers); Lsb0 proved when the first write has at most 8 bits, refuted otherwise."
  },
  {
   "property": "C17",
   "status": "partial",
   "theorems": [
    "C17_mixed_round_trip_partial",
    "C17_mixed_round_trip_refuted"
   ],
   "note": "Proved for the schedules accepted by [fits]; refuted in general."
  },
  {
   "property": "C18",
   "status": "partial",
   "theorems": [
    "C18_unsigned_codec_partial",
    "C18_read_then_write_partial",
    "C18_sequences_round_trip_partial"
   ],
   "note": "Exact encoding and round trip at every alignment, canonicity and whole sequences of fields, for every unsigned type, byte order, bit order and size, except big-endian Lsb0 with 8 < n < width, which is false (C23)."
  },
  {
   "property": "C19",
   "status": "partial",
   "theorems": [
    "C19_range_check_exact_partial",
    "C19_zero_bits_refuted"
   ],
   "note": "Exact for every n >= 1 and every writer state with a sink that accepts everything; zero bits in big-endian Msb0 order panic (refuted)."
  },
  {
   "property": "C20",
   "status": "partial",
   "theorems": [
    "C20_signed_range_exact",
    "C20_signed_codec",
    "C20_signed_codec_no_endian_partial",
    "C20_signed_bits16_refuted"
   ],
   "note": "Exact range and round trip with an endian; without endian proved for sizes that are not a multiple of 8, refuted for bits = 16 (no sign extension)."
  },
  {
   "property": "C21",
   "status": "partial",
   "theorems": [
    "C21_explicit_msb_partial",
    "C21_negative_rejected_refuted",
    "C21_overflow_accepted_refuted",
    "C21_byte_size_refuted"
   ],
   "note": "Proved for values in [0, 2^(n-1)) and for full-width sizes; refuted for negatives (rejected), for values in [2^(n-1), 2^n) (come back negative) and for byte sizes (no sign extension)."
  },
  {
   "property": "C22",
   "status": "partial",
   "theorems": [
    "C22_byte_sized_round_trip_partial",
    "C22_byte_sized_truncates",
    "C22_oversize_write_rejected",
    "C22_high_bytes_lost_refuted",
    "C22_lsb0_inside_a_byte_refuted"
   ],
   "note": "Round trip for values below 2^(8n); for all values the result is the value modulo 2^(8n), so the property is refuted; also refuted for Lsb0 inside a byte."
  },
  {
   "property": "C23",
   "status": "partial",
   "theorems": [
    "C23_big_lsb0_partial",
    "C23_write_refuted",
    "C23_write_not_injective_refuted",
    "C23_read_refuted"
   ],
   "note": "Proved for n <= 8 and n = width; refuted in between, for writes (low byte lost, not injective) and reads (value out of range)."
  },
  {
   "property": "C24",
   "status": "proved",
   "theorems": [
    "C24_oversize_bits_rejected",
    "C24_oversize_bytes_rejected",
    "C24_u8_oversize_refuted"
   ],
   "note": "Every multi-byte type and context, every reader state. u8, which the property excludes, is covered for the contexts that check; the others are shown to read one byte silently."
  },
  {
   "property": "C25",
   "status": "partial",
   "theorems": [
    "C25_count_exact_partial",
    "C25_count_failure_partial",
    "C25_integers_forward",
    "C25_round_trip_partial",
    "C25_lawful_end_to_end",
    "C25_zero_sized_refuted",
    "C25_seeking_refuted"
   ],
   "note": "Exact result, exact failure and round trip for every element that does not move bits_read back; false for zero-sized elements (count ignored) and for elements that seek (panic)."
  },
  {
   "property": "C26",
   "status": "partial",
   "theorems": [
    "C26_limits_exact_partial",
    "C26_limits_failure_partial",
    "C26_read_all_exact",
    "C26_limits_round_trip",
    "C26_read_all_round_trip",
    "C26_limit_inside_element_refuted"
   ],
   "note": "Exact characterisation of success and failure for all limits, and round trips; elements must not move bits_read back. A bit or byte limit that falls inside an element is passed over (refuted)."
  },
  {
   "property": "C27",
   "status": "partial",
   "theorems": [
    "C27_bulk_agrees_partial",
    "C27_misaligned_refuted",
    "C27_misaligned_round_trip_refuted",
    "C27_after_end_refuted",
    "C27_noseek_refuted"
   ],
   "note": "Equal in Lsb0 at every alignment and in Msb0 at byte boundaries, on seekable sources without a peeked byte; refuted for misaligned Msb0 (also the round trip), after end() and on NoSeek sources."
  },
  {
   "property": "C28",
   "status": "partial",
   "theorems": [
    "C28_round_trip_partial",
    "C28_round_trip_stream_partial",
    "C28_cond_default_refuted",
    "C28_misaligned_bytes_refuted",
    "C28_id_pat_with_id_refuted",
    "C28_stored_id_endian_refuted",
    "C28_by_hand"
   ],
   "note": "Round trip of every derive type whose format specification (encode_ty) accepts the value; the four refuted theorems show where it is false of the code: cond with a default, counted Vec<u8> inside a byte, pattern variants with a context id, stored ids with a container endianness. Hand-written types that follow a format step by step are lawful (C28_by_hand)."
  },
  {
   "property": "C29",
   "status": "partial",
   "theorems": [
    "C29_rest",
    "C29_chain_partial",
    "C29_end_refuted",
    "C29_lsb_refuted",
    "C29_vec_inside_refuted",
    "C29_seek_refuted"
   ],
   "note": "The rest and offset returned are exact for every type; chaining equals one reader for first types read in whole bytes or in Msb0 order, with seeks and hand-written readers. Nothing missing but what is false: Lsb0 parts of a byte (C29_lsb_refuted), counted Vec<u8> that starts inside a byte (C29_vec_inside_refuted), a second type that seeks (C29_seek_refuted), a first type whose hand-written reader asks end() (C29_end_refuted)."
  },
  {
   "property": "C30",
   "status": "partial",
   "theorems": [
    "C30_accepts_exactly",
    "C30_too_much_data",
    "C30_fails_with_from_bytes",
    "C30_partial_last_byte_refuted"
   ],
   "note": "Accepts exactly when the first read succeeds and leaves no whole byte; refuted when the last byte is only partly consumed."
  },
  {
   "property": "C31",
   "status": "partial",
   "theorems": [
    "C31_to_slice_partial",
    "C31_to_bits_partial",
    "C31_seek_refuted"
   ],
   "note": "For every type and value without seek attributes, every buffer. False with seek attributes (C31_seek_refuted)."
  },
  {
   "property": "C32",
   "status": "partial",
   "theorems": [
    "C32_struct_partial",
    "C32_bound_partial",
    "C32_variant_partial",
    "C32_largest",
    "C32_size_bytes",
    "C32_buffer_partial",
    "C32_buffer_enough_partial",
    "C32_temp_refuted",
    "C32_skip_refuted",
    "C32_tuple_bits_refuted",
    "C32_u8_bytes_refuted",
    "C32_writer_refuted"
   ],
   "note": "Exact for structs without enums, an upper bound with enums, exact per variant, with hand-written writers that give the size of their field (gives). False with temp, skip, sizes on tuples, bytes on u8 and other hand-written writers (refuted theorems)."
  },
  {
   "property": "C33",
   "status": "proved",
   "theorems": [
    "C33_dispatch",
    "C33_id_error",
    "C33_result_is_chosen",
    "C33_chosen_unique",
    "C33_overlap_refuted"
   ],
   "note": "First matching variant, else the default; uniqueness of the choice; the error when none; refutation of reading back an overlapped variant beside it."
  },
  {
   "property": "C34",
   "status": "partial",
   "theorems": [
    "C34_magic_exact",
    "C34_magic_mismatch",
    "C34_magic_short",
    "C34_magic_required",
    "C34_magic_required_enum",
    "C34_magic_written_partial",
    "C34_padding_written",
    "C34_padding_skipped_partial",
    "C34_padding_after_end_check_refuted",
    "C34_lsb_magic_refuted"
   ],
   "note": "Magic: exact on reading, required by containers, written whole outside the middle of an Lsb0 byte. Padding: zero bits written, any bits skipped on a seekable source or below a byte. Refutations for the remaining cases."
  },
  {
   "property": "C35",
   "status": "partial",
   "theorems": [
    "C35_read",
    "C35_write",
    "C35_read_enum",
    "C35_write_enum_partial",
    "C35_id_pat_with_id_refuted"
   ],
   "note": "Structs and enums on reading and writing; refuted on writing for the first field of a pattern variant whose id comes from the context."
  },
  {
   "property": "C36",
   "status": "partial",
   "theorems": [
    "C36_integer",
    "C36_integer_bytes",
    "C36_bool",
    "C36_bool_rejects",
    "C36_nonzero",
    "C36_nonzero_rejects",
    "C36_tuple",
    "C36_unit",
    "C36_array",
    "C36_option_partial",
    "C36_option_none_refuted",
    "C36_ipv4",
    "C36_ipv6",
    "C36_cstring",
    "C36_cstring_bytes",
    "C36_cstring_bytes_rejects",
    "C36_cstring_unterminated"
   ],
   "note": "All codecs lawful at every alignment, rejections exact; a bare Option None is written as nothing and cannot be read back (refuted)."
  },
  {
   "property": "C37",
   "status": "proved",
   "theorems": [
    "C37_map_round_trip",
    "C37_duplicates_keep_last",
    "C37_set_round_trip"
   ],
   "note": "Any iteration order, any lawful key and value codecs, counts up to isize::MAX."
  },
  {
   "property": "C38",
   "status": "partial",
   "theorems": [
    "C38_from_reader_partial",
    "C38_calls",
    "C38_to_writer",
    "C38_writes",
    "C38_seek_source",
    "C38_seek_sink",
    "C38_pads_refuted",
    "C38_counted_bytes_refuted",
    "C38_position_refuted",
    "C38_lost_bytes_refuted"
   ],
   "note": "Every sequence of calls, and every derived type without pads of a byte or more and counted Vec<u8>; those fail on NoSeek (refuted). The reported position is wrong after a failed partial transfer (refuted)."
  },
  {
   "property": "C39",
   "status": "partial",
   "theorems": [
    "C39_reader",
    "C39_struct_read_partial",
    "C39_writer_partial",
    "C39_struct_written",
    "C39_failed_refuted",
    "C39_pending_refuted",
    "C39_field_lost_refuted"
   ],
   "note": "Reader: proved for every state and target; a seek that fails drops the buffered bits (C39_failed_refuted). Writer: what is stored after the seek is proved; pending bits are lost silently (refuted)."
  },
  {
   "property": "C40",
   "status": "partial",
   "theorems": [
    "C40_enough_partial",
    "C40_short_partial",
    "C40_huge_count_refuted",
    "C40_past_end_refuted",
    "C40_after_end_refuted",
    "C40_capacity_refuted"
   ],
   "note": "Proved inside seekable sources without a peeked byte for counts below 2^61; refuted for larger counts, past the end, after end(), and for the capacity of other element types."
  },
  {
   "property": "C41",
   "status": "partial",
   "theorems": [
    "C41_integers_safe_partial",
    "C41_count_safe_partial",
    "C41_limits_no_panic_partial",
    "C41_limits_halt_partial",
    "C41_integers_consume",
    "C41_zero_bits_refuted",
    "C41_empty_elements_hang_refuted",
    "C41_failing_source_hangs_refuted"
   ],
   "note": "Integers of every type, context and alignment; vectors of any safe element that does not seek, with all limits; termination of loops on sources that do not fail. Refuted for zero-bit integers, for read_all of elements that consume nothing, and for sources whose I/O calls keep failing."
  },
  {
   "property": "C42",
   "status": "proved",
   "theorems": [
    "C42_buffer",
    "C42_reader",
    "C42_writer",
    "C42_conversions",
    "C42_from"
   ],
   "note": "The array level of BoundedBitVec refines the bounded list used by the rest of the model; reader and writer call histories agree. Capacity is a parameter (the code uses 8*8 and 8*16 bits)."
  },
  {
   "property": "C43",
   "status": "partial",
   "theorems": [
    "C43_struct_layout_partial",
    "C43_enum_layout_partial",
    "C43_inherited",
    "C43_inherited_enum",
    "C43_two_orders_refuted"
   ],
   "note": "Layout of structs of integer fields and of enum ids, at every alignment, when one bit order is used inside bytes; inheritance as full equality of reading and writing for every derived type. Not covered: layouts that mix bit orders inside a byte, where it is false in general (C43_two_orders_refuted, C17)."
  },
  {
   "property": "C44",
   "status": "proved",
   "theorems": [
    "C44_default",
    "C44_default_enum",
    "C44_given",
    "C44_given_enum",
    "C44_passed",
    "C44_passed_write"
   ],
   "note": "Full equality of executions for the default and for given arguments, structs and enums; arguments of a field after any prefix of fields without temp. The statements about a field assume no container endian or bit_order, which C43_inherited reduces to."
  },
  {
   "property": "C45",
   "status": "proved",
   "theorems": [
    "C45_read",
    "C45_write"
   ],
   "note": "Full equality of executions on every stream. For writing, fields without a hand-written writer."
  },
  {
   "property": "C46",
   "status": "proved",
   "theorems": [
    "C46_struct",
    "C46_enum",
    "C46_failure",
    "C46_idempotent",
    "C46_round_trip"
   ],
   "note": "Exact effect for structs and enums, exact failure, idempotence, and the round trip of length-prefixed vectors."
  },
  {
   "property": "C47",
   "status": "proved",
   "theorems": [
    "C47_limits",
    "C47_bad_number"
   ],
   "note": "Any prefix of fields, all five limits, elements of any derived type that does not move bits_read back; the literal Vec<u8> with count is C27."
  },
  {
   "property": "C48",
   "status": "proved",
   "theorems": [
    "C48_success",
    "C48_failure",
    "C48_reader",
    "C48_decided",
    "C48_by_hand",
    "C48_end_call_refuted",
    "C48_catch_refuted",
    "C48_read_all_refuted",
    "C48_seek_end_refuted"
   ],
   "note": "Through derive, at from_bytes level and for a reader in any state on any source; the two exceptions of the statement are refuted by witnesses. Hand-written readers that use the methods of Reader and return at the first error meet the condition (C48_by_hand); one that calls end() or catches Incomplete does not (C48_end_call_refuted, C48_catch_refuted)."
  },
  {
   "property": "C49",
   "status": "partial",
   "theorems": [
    "C49_from_bytes_partial",
    "C49_try_from_partial",
    "C49_from_reader_partial",
    "C49_reader_partial",
    "C49_safe_types",
    "C49_huge_count_refuted",
    "C49_no_progress_refuted",
    "C49_past_end_refuted",
    "C49_seeking_element_refuted",
    "C49_by_hand",
    "C49_catching",
    "C49_catching_from_reader",
    "C49_skip_after_error_refuted"
   ],
   "note": "Types satisfying flow_type only: a condition on the attributes as evaluated on all values of the earlier fields, followed from field to field (where the source is known not to be past its end). safe_type, simpler, implies it. Four kinds of type violating it are refuted by witnesses. Failing sources are C79. Hand-written readers that use the methods of Reader (seeks and skips included) and return at the first error meet the condition (C49_by_hand). Ones that catch errors and go on do not panic either (C49_catching), unless they skip a byte or more after a seek that failed (C49_skip_after_error_refuted)."
  },
  {
   "property": "C50",
   "status": "partial",
   "theorems": [
    "C50_read_write_partial",
    "C50_whole_bytes_partial",
    "C50_try_from_partial",
    "C50_unique_partial",
    "C50_middle_partial",
    "C50_padding_refuted",
    "C50_default_variant_refuted",
    "C50_map_refuted",
    "C50_temp_refuted",
    "C50_cond_refuted",
    "C50_signed_refuted",
    "C50_lsb_bytes_refuted",
    "C50_seek_refuted",
    "C50_by_hand"
   ],
   "note": "For types satisfying rewritable_type, a condition on the attributes as evaluated on all values of the earlier fields. Each excluded feature is refuted by a witness. Hand-written readers and writers that mirror each other step by step meet the condition (C50_by_hand)."
  },
  {
   "property": "C51",
   "status": "partial",
   "theorems": [
    "C51_declared",
    "C51_otherwise",
    "C51_read_partial",
    "C51_written",
    "C51_discriminant_refuted",
    "C51_default_refuted"
   ],
   "note": "A default variant with an id, and variants with only a discriminant, are refuted."
  },
  {
   "property": "C52",
   "status": "partial",
   "theorems": [
    "C52_to_bytes_partial",
    "C52_to_slice_partial",
    "C52_to_bits_partial",
    "C52_writer_partial",
    "C52_errors_partial",
    "C52_read_partial",
    "C52_by_hand",
    "C52_zero_bits_refuted",
    "C52_seek_refuted",
    "C52_seek_read_refuted",
    "C52_after_error_refuted"
   ],
   "note": "For types satisfying wsafe_type (no size of 0 bits, no seek whose offset does not convert, ids storable). Both exclusions are refuted by witnesses. Hand-written writers that use the methods of Writer and return at the first error meet the condition (C52_by_hand); one that goes on after an error does not (C52_after_error_refuted)."
  },
  {
   "property": "C53",
   "status": "partial",
   "theorems": [
    "C53_round_trip_partial",
    "C53_read_write_partial",
    "C53_from_bytes_partial",
    "C53_try_from_partial",
    "C53_values_partial",
    "C53_nesting_partial",
    "C53_to_bytes_partial",
    "C53_to_bytes_errors_partial",
    "C53_read_then_write_partial",
    "C53_more_from_bytes",
    "C53_more_try_from",
    "C53_more_to_bytes",
    "C53_more_fuel",
    "C53_stack_refuted",
    "C53_unguarded_refuted",
    "C53_option_refuted",
    "C53_flow_from_bytes_partial",
    "C53_flow_try_from_partial",
    "C53_flow_values_partial",
    "C53_flow_nesting_partial"
   ],
   "note": "Round trip and canonical form for the formats and types of C28 and C50; termination for types satisfying rec_safe or, with byte padding before byte vectors, rec_flows, writing for types satisfying rec_wsafe (as C49 and C52). Three kinds of stack exhaustion or endless nesting are refuted by witnesses."
  },
  {
   "property": "C54",
   "status": "partial",
   "theorems": [
    "C54_to_bytes",
    "C54_to_slice",
    "C54_from_bytes_partial",
    "C54_try_from_partial",
    "C54_from_reader_partial",
    "C54_truncated_padding_refuted",
    "C54_error_refuted",
    "C54_read_all_padding_refuted",
    "C54_seek_refuted",
    "C54_noseek_refuted",
    "C54_offset",
    "C54_offset_refuted"
   ],
   "note": "Writing proved for every type, hand-written writers included (writes_bytes: any code over write_bytes, integers and seeks); reading for types without seeks and without padding inside read_all, hand-written readers included (reads_bytes). Refuted: padding cut off at the end of a reader, the error for it, padding of read_all elements, padding followed by a seek back, padding on sources without seek, bit offsets."
  },
  {
   "property": "C55",
   "status": "proved",
   "theorems": [
    "C55_positive",
    "C55_positive_bytes",
    "C55_positive_try",
    "C55_positive_reader",
    "C55_by_hand",
    "C55_enough",
    "C55_receive",
    "C55_missing_refuted",
    "C55_padding_refuted",
    "C55_false_end_refuted"
   ],
   "note": "The loop theorem is for types that never panic (C49) and do not depend on where the input ends (C48); refutations for the stronger readings of the size: it is that of the read that failed, not what is missing (documented as 'Number of bits needed to retry parsing'), and it leaves out padding. Hand-written readers that return at the first error meet the condition (C55_by_hand)."
  },
  {
   "property": "C56",
   "status": "partial",
   "theorems": [
    "C56_accepted",
    "C56_read_write",
    "C56_without_bits",
    "C56_with_bits_partial",
    "C56_with_bits_refuted",
    "C56_limit_partial",
    "C56_limit_refuted",
    "C56_seek",
    "C56_container_seek_refuted",
    "C56_padding",
    "C56_arguments",
    "C56_id_arguments",
    "C56_expressions",
    "C56_values",
    "C56_vec_u8_bits_refuted",
    "C56_id_written",
    "C56_id_storage",
    "C56_discriminant"
   ],
   "note": "Acceptance, agreement of the macros, seeks, padding and ids are proved in full. False and refuted: `until` beside another limit, several seeks on a struct, seeks on an enum, and without `bits` also `read_all` beside another limit are accepted and ignored; `bits` on a counted Vec<u8> is ignored on reading only."
  },
  {
   "property": "C57",
   "status": "proved",
   "theorems": [
    "C57_declared",
    "C57_format",
    "C57_read_back",
    "C57_prefix_free",
    "C57_reads_anything",
    "C57_reads_source",
    "C57_exactly",
    "C57_rejects",
    "C57_try_from",
    "C57_padding_refuted",
    "C57_shape",
    "C57_padded_exactly",
    "C57_padded_rejects",
    "C57_padded_try_from",
    "C57_writes_anything",
    "C57_receives"
   ],
   "note": "In contrast to C28, C49, C50, C52 and C55, whose conditions on types are propositions about attribute functions, the conditions here are one boolean function of the declaration. With padding the accepted inputs are those of a shape (the format with the bits of padding left open, C57_padded_*); that the format itself does not suffice there is shown by a refutation."
  },
  {
   "property": "C58",
   "status": "proved",
   "theorems": [
    "C58_from_reader",
    "C58_from_bytes",
    "C58_try_from",
    "C58_to_writer",
    "C58_to_bytes",
    "C58_to_bits",
    "C58_to_slice",
    "C58_writes",
    "C58_update",
    "C58_deku_id"
   ],
   "note": "Hand-written readers, writers and impls return what they like and are excluded. from_reader with an offset of 8 bits or more makes a seek of its own, which a source that cannot seek refuses; the theorem asks for an offset below 8 or a source that can seek."
  },
  {
   "property": "C59",
   "status": "partial",
   "theorems": [
    "C59_position_partial",
    "C59_peek_refuted",
    "C59_elsewhere_partial",
    "C59_seek_refuted",
    "C59_next_partial",
    "C59_messages_partial",
    "C59_sent_received_partial",
    "C59_padding_count_refuted",
    "C59_padding_value_refuted",
    "C59_bits_refuted"
   ],
   "note": "Hand-written readers: any that read and stop at an error; false for those that call end() (C59_peek_refuted). Seeks only from the start of a source; elsewhere false (C59_seek_refuted). False with pads of a byte and more on a source that is not at its start: they are skipped with a seek, which sets the count of bits to the absolute position (C59_padding_count_refuted), so that a Vec with bytes_read ends early without an error (C59_padding_value_refuted). Bits left in the last byte are dropped (C59_bits_refuted)."
  },
  {
   "property": "C60",
   "status": "partial",
   "theorems": [
    "C60_send_partial",
    "C60_sends_partial",
    "C60_file_partial",
    "C60_seek_refuted"
   ],
   "note": "Missing: seek attributes, where it is false (C60_seek_refuted: the second value replaces the first), and hand-written writers that seek. For sinks that fail see C77."
  },
  {
   "property": "C61",
   "status": "partial",
   "theorems": [
    "C61_limits",
    "C61_unique",
    "C61_any_order",
    "C61_offset_refuted",
    "C61_duplicates_refuted",
    "C61_zero_sized_refuted"
   ],
   "note": "False: a count read from the input counts duplicate keys too, so what is read from an input with duplicates is written as bytes that cannot be read (C61_duplicates_refuted); zero-sized entries with read_all are read for ever (C61_zero_sized_refuted). Entries whose format depends on where they stand (deku::bit_offset) do not survive another order (C61_offset_refuted); the round trip is for all others."
  },
  {
   "property": "C62",
   "status": "proved",
   "theorems": [
    "C62_accepted",
    "C62_ipv4_parse",
    "C62_ipv4_short",
    "C62_ipv4_build",
    "C62_frame_control",
    "C62_read_all",
    "C62_enums",
    "C62_catch_all_read",
    "C62_catch_all_write",
    "C62_custom",
    "C62_custom_short",
    "C62_example_parse",
    "C62_example_assert",
    "C62_example_short"
   ],
   "note": "The declarations go through the model of the derive macros (Decl.v). Not covered: examples/many.rs (a Vec read with an explicit Limit, C25) and examples/deku_input.rs (a user-defined Read)."
  },
  {
   "property": "C63",
   "status": "partial",
   "theorems": [
    "C63_input",
    "C63_reader",
    "C63_variant_input",
    "C63_variant_reader",
    "C63_told",
    "C63_nested_refuted",
    "C63_output",
    "C63_variant_output",
    "C63_write_refuted",
    "C63_write_seek_refuted"
   ],
   "note": "On writing false inside a byte: the bits pending in the writer are not counted (C63_write_refuted), so the offset is rounded down to whole bytes (C63_output); after a seek neither offset is the position in the output (C63_write_seek_refuted). Reading is proved; the struct in the documentation of deku::byte_offset takes the offset as relative to the struct, which holds only at the start of the input (C63_nested_refuted)."
  },
  {
   "property": "C64",
   "status": "proved",
   "theorems": [
    "C64_declared",
    "C64_spelled_out",
    "C64_format",
    "C64_exactly",
    "C64_try_from",
    "C64_reads_source",
    "C64_writes_anything"
   ],
   "note": "Byte orders are handed on as deku asks for it: a byte order at a field or its container reaches a nested struct or enum only through ctx, which must then be declared there (Rust rejects anything else; handed). A variable in an endian attribute is the first argument of ctx. Left out: a byte order handed to a pair of a number and a struct or enum; a CString takes no byte order (Rust rejects it)."
  },
  {
   "property": "C65",
   "status": "partial",
   "theorems": [
    "C65_reads",
    "C65_id_fails",
    "C65_writes",
    "C65_conservative",
    "C65_round_trip",
    "C65_inverse_refuted",
    "C65_deku_id",
    "C65_deku_id_refuted"
   ],
   "note": "False as stated for deku_id, which is IdVariantNotFound for a variant with a reader (C65_deku_id, C65_deku_id_refuted). That reader and writer are inverse to each other is not enough (C65_inverse_refuted): the writer has to write the id, the reader starts behind it. Everything else is proved in full."
  },
  {
   "property": "C66",
   "status": "proved",
   "theorems": [
    "C66_array_memory",
    "C66_array_refines"
   ],
   "note": "The destructors of T are assumed not to panic. If the reader of an element panics, the elements before it are leaked, which Rust counts as safe; the theorem says so."
  },
  {
   "property": "C67",
   "status": "partial",
   "theorems": [
    "C67_from_bytes",
    "C67_from_reader",
    "C67_to_bytes",
    "C67_to_slice",
    "C67_wrapped",
    "C67_there_and_back_refuted",
    "C67_need",
    "C67_need_size",
    "C67_cause_refuted"
   ],
   "note": "Proved for the kinds, the wrapping and byte_size. An error is its own cause, so that a walk along cause() does not end (C67_cause_refuted), and the conversion back from io::Error keeps the kind only (C67_wrapped, C67_there_and_back_refuted)."
  },
  {
   "property": "C68",
   "status": "partial",
   "theorems": [
    "C68_declared",
    "C68_update",
    "C68_total",
    "C68_again",
    "C68_wire",
    "C68_repairs",
    "C68_nested_refuted"
   ],
   "note": "Proved for the counts of the struct or enum itself. update does not reach the structs it is made of (C68_nested_refuted)."
  },
  {
   "property": "C69",
   "status": "proved",
   "theorems": [
    "C69_low_read",
    "C69_high_read",
    "C69_low_write",
    "C69_high_write",
    "C69_low_short",
    "C69_high_short",
    "C69_low_refused",
    "C69_high_refused",
    "C69_default_neither"
   ],
   "note": "With bit_order = \"lsb\" a field without bits must begin at a byte boundary. Signed fields only without bits. C69_default_neither: with neither attribute (little-endian and Msb0) no such number exists."
  },
  {
   "property": "C70",
   "status": "proved",
   "theorems": [
    "C70_little",
    "C70_little_output",
    "C70_portable",
    "C70_portable_output",
    "C70_machine_dependent_refuted",
    "C70_stored_id_refuted",
    "C70_spelled",
    "C70_spelled_output",
    "C70_spelled_input",
    "C70_format",
    "C70_try_from"
   ],
   "note": "i8 counts as a single byte only without a bit order. Hand-written readers use the reader's API and are themselves the same on all machines. The second part leaves out pairs of a number and a struct or enum, to which no byte order can be given. C70_machine_dependent_refuted: without byte orders the two machines differ. C70_stored_id_refuted: an enum with endian = \"little\" whose id is stored by id_pat still depends on the machine (finding 25)."
  },
  {
   "property": "C71",
   "status": "partial",
   "theorems": [
    "C71_written_out",
    "C71_reading_partial",
    "C71_writing_partial",
    "C71_update",
    "C71_deku_id",
    "C71_declaration_partial",
    "C71_size_refuted",
    "C71_padding_refuted",
    "C71_stored_id_refuted"
   ],
   "note": "Partial because the full statement is false in three places, each with a witness: DekuSize does not look at ctx (C71_size_refuted, finding 49), padding follows bit_order and not ctx (C71_padding_refuted), and a stored id is written without the byte order of the enum (C71_stored_id_refuted, finding 25). The theorems exclude exactly padding together with a bit order, a stored id that inherits its byte order, and an enum with a bit order, which no attribute of the id can replace. The first field of an id_pat variant keeps its attributes, since it can have none."
  },
  {
   "property": "C72",
   "status": "proved",
   "theorems": [
    "C72_reader",
    "C72_from_reader",
    "C72_from_bytes",
    "C72_no_new_panics",
    "C72_writer",
    "C72_to_bytes",
    "C72_write_no_new_panics",
    "C72_safe_from_bytes",
    "C72_safe_from_reader",
    "C72_plain_read_back",
    "C72_plain_try_from",
    "C72_plain_write",
    "C72_bytes_read_wraps",
    "C72_bytes_read_refuted",
    "C72_no_bits_refuted",
    "C72_write_no_bits_refuted",
    "C72_past_end",
    "C72_past_end_refuted",
    "C72_seeking_element_refuted"
   ],
   "note": "The theorems named _refuted show that where the debug build does panic the optimised one may succeed or loop for ever, so that 'no input is accepted that the debug build refuses' is false: a length of 2^61 for bytes_read, taken from the input, is accepted as 0 (C72_bytes_read_wraps gives the rule, finding 50); a field of no bits is read as 0 or written as nothing; a vector of elements that seek back never ends. Hand-written impls and expressions in attributes are taken to do the same in both builds."
  },
  {
   "property": "C73",
   "status": "proved",
   "theorems": [
    "C73_reading",
    "C73_writing",
    "C73_size",
    "C73_size_refuted",
    "C73_update_refuted",
    "C73_newtype_reading",
    "C73_newtype_writing"
   ],
   "note": "The nested struct has no magic and no seek of its own, and it and the fields before it have no temp fields; the outer struct has no endian or bit_order of its own (they go to its direct fields only). C73_update_refuted: update stops at the nested struct and so is not covered (finding 48). C73_size_refuted: with bits on a tuple DekuSize counts the size once (finding 29)."
  },
  {
   "property": "C74",
   "status": "partial",
   "theorems": [
    "C74_same",
    "C74_from_bytes_partial",
    "C74_from_reader_partial",
    "C74_counted_vec_refuted",
    "C74_counted_bytes_refuted"
   ],
   "note": "Missing: types that C49 does not cover, types that seek, sources that fail. The input alone is no bound for counts on other collections than Vec<u8>: C74_counted_vec_refuted, C74_counted_bytes_refuted (finding 51). Not counted: what push reserves ahead (a constant factor), hash table control bytes, messages of errors, Box::new and Arc::new of one value, hand-written readers."
  },
  {
   "property": "C75",
   "status": "proved",
   "theorems": [
    "C75_from_reader",
    "C75_try_from",
    "C75_old_messages",
    "C75_new_messages",
    "C75_new_variant",
    "C75_values",
    "C75_writer",
    "C75_to_bytes",
    "C75_to_slice",
    "C75_to_bits",
    "C75_update",
    "C75_deku_id",
    "C75_default_refuted",
    "C75_in_front_refuted"
   ],
   "note": "A vector of elements that need more memory in the new version may exceed isize::MAX bytes and panic, so C75_old_messages asks for equal sizes or for a type of C49. Enums with a default variant, where it is false: C75_default_refuted. A variant put in front of a pattern: C75_in_front_refuted."
  },
  {
   "property": "C76",
   "status": "proved",
   "theorems": [
    "C76_from_reader",
    "C76_from_bytes",
    "C76_try_from",
    "C76_reader",
    "C76_to_bytes",
    "C76_to_slice",
    "C76_to_bits",
    "C76_writer",
    "C76_passes",
    "C76_write_passes"
   ],
   "note": "C76_passes and C76_write_passes are about the assertions of the fields of a struct itself, wherever it is nested, and ask that the assertions hold at any position."
  },
  {
   "property": "C77",
   "status": "proved",
   "theorems": [
    "C77_send"
   ],
   "note": "For declarations that write in order (writes_in_order: no seek attributes, hand-written writers do not seek). With seeks the stored bytes are no prefix even without failures: C60_seek_refuted."
  },
  {
   "property": "C78",
   "status": "proved",
   "theorems": [
    "C78_from_reader",
    "C78_from_bytes",
    "C78_to_bytes",
    "C78_try_from_refuted",
    "C78_nested_refuted"
   ],
   "note": "Writing: for declarations without seeks; writer and temp_value of the old fields do not name the new ones. TryFrom of the old version refuses new messages (C78_try_from_refuted), and inside another type the new fields are taken for what follows (C78_nested_refuted)."
  },
  {
   "property": "C79",
   "status": "partial",
   "theorems": [
    "C79_from_reader_partial",
    "C79_hand_written",
    "C79_padding_refuted",
    "C79_flow_refuted",
    "C79_endless_refuted"
   ],
   "note": "Hand-written readers: any that read and stop at an error (C79_hand_written: these also meet the condition of C49); missing are those that seek, skip whole bytes or call end(). False for padding of a byte or more within the elements of a vector (C79_padding_refuted: a swallowed failure and the padding make the bit count go back, and its difference underflows) and for types that are flow_type but not safe_type (C79_flow_refuted: the reads that would tell that the source is past its end are swallowed). If every call fails, read_all may go on for ever (C79_endless_refuted)."
  },
  {
   "property": "C80",
   "status": "proved",
   "theorems": [
    "C80_read_program",
    "C80_write_program",
    "C80_read_by_hand",
    "C80_write_by_hand",
    "C80_read_pieces",
    "C80_write_pieces",
    "C80_failing_sources",
    "C80_failing_sinks"
   ],
   "note": "Chunks.v models std's read_exact and write_all as loops over read and write. C80_read_program and C80_write_program give for every type a program that makes these calls only; C80_read_pieces and C80_write_pieces compare its runs, C80_failing_sources and C80_failing_sinks carry the theorems about failing streams over. Hand-written types that use the methods of Reader and Writer are covered (C80_read_by_hand, C80_write_by_hand); reader and writer attributes are outside."
  },
  {
   "property": "C81",
   "status": "proved",
   "theorems": [
    "C81_prefix",
    "C81_one_reading",
    "C81_empty_refuted",
    "C81_read_all_refuted"
   ],
   "note": "Hand-written impls that follow their format are included. False for read_all (C81_read_all_refuted), and for lists of empty messages (C81_empty_refuted)."
  },
  {
   "property": "C82",
   "status": "partial",
   "theorems": [
    "C82_reads",
    "C82_format",
    "C82_writes",
    "C82_big_lsb_refuted",
    "C82_vec_refuted",
    "C82_unsized_refuted",
    "C82_signed_reads",
    "C82_signed_writes",
    "C82_signed_bytes_refuted",
    "C82_signed_order_refuted"
   ],
   "note": "Writing: false for more than 8 bits big-endian and least significant bit first (C82_big_lsb_refuted; reading holds). A Vec<u8> with a count stays a Vec<u8> (C82_vec_refuted), and a vector with a count keeps the size of its elements in memory, which is in the model. Without a size it is false (C82_unsized_refuted). Missing: derived types with signed fields (signed integers themselves: C82_signed_reads, C82_signed_writes); what values outside the format are written to; the first field of id_pat variants. For signed integers it is false with a size in bytes (C82_signed_bytes_refuted) and, on writing, with a bit_order (C82_signed_order_refuted)."
  },
  {
   "property": "C83",
   "status": "partial",
   "theorems": [
    "C83_exact_partial",
    "C83_position_partial",
    "C83_try_from_partial",
    "C83_bound_partial",
    "C83_enough_partial",
    "C83_u8_bits_refuted",
    "C83_temp_refuted",
    "C83_tuple_bits_refuted",
    "C83_cond_refuted",
    "C83_reader_refuted"
   ],
   "note": "False for temp fields (C83_temp_refuted), bits on a tuple (C83_tuple_bits_refuted), u8 with bits over 8 (C83_u8_bits_refuted), reader attributes that take another number of bits than the type (C83_reader_refuted); exactness is false with cond or skip (C83_cond_refuted). Reader attributes that take the size of the field are covered (asks). Excluded: maps and readers that make up an Incomplete themselves."
  },
  {
   "property": "C84",
   "status": "partial",
   "theorems": [
    "C84_lengths_partial",
    "C84_array_partial",
    "C84_lengths_anywhere",
    "C84_array_anywhere",
    "C84_pads_refuted",
    "C84_vec_u8_refuted",
    "C84_overshoot_refuted"
   ],
   "note": "Any source and anything before the collection if the pads inside an element have less than 8 bits (C84_lengths_anywhere, C84_array_anywhere; readers inside an element may be written by hand if they count the size of their field); with longer pads if the collection starts at a known bit of an input of its own, and false in a source that is not at its start (C84_pads_refuted). False for a Vec<u8> with a count, which checks all its bytes first (C84_vec_u8_refuted), and a length that ends inside an element is overrun (C84_overshoot_refuted)."
  },
  {
   "property": "C85",
   "status": "proved",
   "theorems": [
    "C85_patch",
    "C85_used_refuted",
    "C85_endian_refuted"
   ],
   "note": "If a later field uses the patched one it is false: C85_used_refuted, C85_endian_refuted. Reader, writer and seek attributes are outside, as in C28."
  },
  {
   "property": "C86",
   "status": "proved",
   "theorems": [
    "C86_from_reader",
    "C86_from_bytes",
    "C86_try_from",
    "C86_written",
    "C86_deku_id",
    "C86_update",
    "C86_size",
    "C86_overlap_refuted"
   ],
   "note": "With overlapping ids the first variant wins, so the order matters: C86_overlap_refuted. Ids taken from implicit Rust discriminants change with the order; here a variant keeps its discriminant. The enum is the type read; where it is nested, attributes of other fields could tell the variants apart."
  },
  {
   "property": "C88",
   "status": "proved",
   "theorems": [
    "C88_reading",
    "C88_writing",
    "C88_update",
    "C88_size_partial",
    "C88_cond_skip_refuted",
    "C88_pad_magic_refuted",
    "C88_pad_order_refuted",
    "C88_size_refuted"
   ],
   "note": "Where the words differ: cond = \"false\" is not skip, the field is still written (C88_cond_skip_refuted); padding does not move across a magic (C88_pad_magic_refuted) or into another bit order (C88_pad_order_refuted); the magic of a temp field is not counted in the size (C88_size_refuted), so the size part is C88_size_partial. The text of assertion messages is not modelled. The first field of an id_pat variant without a reader takes the rules about one field only."
  },
  {
   "property": "C87",
   "status": "proved",
   "theorems": [
    "C87_from_reader",
    "C87_reader",
    "C87_from_bytes",
    "C87_read_alike",
    "C87_written",
    "C87_wide",
    "C87_fits_from_reader",
    "C87_fits_from_bytes",
    "C87_fits_no_panic",
    "C87_fits_written",
    "C87_limit_refused",
    "C87_pad_refused",
    "C87_count_refuted",
    "C87_bytes_refuted"
   ],
   "note": "The refusals happen: on 32 bits a four-byte count panics where a 64-bit target reports a short input (C87_count_refuted, C87_bytes_refuted). With 64 bits nothing differs (C87_wide). Counters of bits are unbounded, so inputs shorter than usize::MAX bits. A usize field has another size on another target; hand-written readers and writers are taken to be the same."
  }
 ]
}