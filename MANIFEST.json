{
 "claims": [
  {
   "property": "C01",
   "status": "proved",
   "theorems": [
    "C01_roundtrip"
   ],
   "note": "Proved in full for every input as stated."
  },
  {
   "property": "C02",
   "status": "proved",
   "theorems": [
    "C02_encoding",
    "C02_injective"
   ],
   "note": "Proved in full for every input as stated."
  },
  {
   "property": "C03",
   "status": "proved",
   "theorems": [
    "C03_accepts"
   ],
   "note": "Proved in full for every input as stated."
  },
  {
   "property": "C04",
   "status": "proved",
   "theorems": [
    "C04_errors"
   ],
   "note": "Proved in full for every input as stated."
  },
  {
   "property": "C05",
   "status": "proved",
   "theorems": [
    "C05_fast"
   ],
   "note": "Proved in full for every input as stated."
  },
  {
   "property": "C06",
   "status": "proved",
   "theorems": [
    "C06_builds"
   ],
   "note": "Proved in full for every input as stated."
  },
  {
   "property": "C07",
   "status": "proved",
   "theorems": [
    "C07_case",
    "C07_reencode",
    "C07_case_errors"
   ],
   "note": "Proved in full for every input as stated."
  },
  {
   "property": "C08",
   "status": "proved",
   "theorems": [
    "C08_text",
    "C08_injective",
    "C08_length_text",
    "C08_decimal"
   ],
   "note": "Proved in full for every input as stated."
  },
  {
   "property": "C09",
   "status": "proved",
   "theorems": [
    "C09_zero"
   ],
   "note": "Proved in full for every input as stated."
  },
  {
   "property": "C10",
   "status": "proved",
   "theorems": [
    "C10_xor",
    "C10_overlap",
    "C10_twice"
   ],
   "note": "Proved in full for every input as stated."
  },
  {
   "property": "C11",
   "status": "proved",
   "theorems": [
    "C11_le"
   ],
   "note": "Proved in full for every input as stated."
  },
  {
   "property": "C12",
   "status": "proved",
   "theorems": [
    "C12_be"
   ],
   "note": "Proved in full for every input as stated."
  },
  {
   "property": "C13",
   "status": "partial",
   "theorems": [
    "C13_le_partial",
    "C13_be_partial",
    "C13_be_second_refuted",
    "C13_be_first_refuted"
   ],
   "note": "False of the code for big endian: C13_be_second_refuted (64 bit and wider use the LAST n bytes of an over-long b) and C13_be_first_refuted (bytes of an over-long a beyond n are written into sum beyond n). C13_be_partial is the exact law for every length; C13_le_partial proves the property in full for little endian."
  },
  {
   "property": "C14",
   "status": "partial",
   "theorems": [
    "C14_le_be_partial",
    "C14_platform_partial",
    "C14_platform_exact_partial",
    "C14_platform_refuted"
   ],
   "note": "False of the code: Add16 and Add32 (platform order) ignore the error and panic on a short destination (C14_platform_refuted; always so: C14_platform_exact_partial). All other functions proved."
  },
  {
   "property": "C15",
   "status": "proved",
   "theorems": [
    "C15_native"
   ],
   "note": "Proved in full for every input as stated."
  },
  {
   "property": "C16",
   "status": "partial",
   "theorems": [
    "C16_le_partial",
    "C16_be_partial",
    "C16_be_refuted"
   ],
   "note": "False of the code for big endian with over-long operands (C16_be_refuted). Proved for little endian in full and for big endian when both operands have at most n bytes."
  },
  {
   "property": "C17",
   "status": "partial",
   "theorems": [
    "C17_le_partial",
    "C17_be_partial",
    "C17_be_any_partial",
    "C17_le_prefix_partial",
    "C17_be_prefix_partial",
    "C17_prefix_refuted"
   ],
   "note": "Add(x,x,b) proved for both orders. Add(x,x[:k],b) is wrong in the code: C17_prefix_refuted; exact laws C17_le_prefix_partial (the whole of x counts) and C17_be_prefix_partial (the padding wipes out the first n-k bytes of the prefix)."
  },
  {
   "property": "C18",
   "status": "proved",
   "theorems": [
    "C18_init"
   ],
   "note": "Proved in full for every input as stated."
  },
  {
   "property": "C19",
   "status": "proved",
   "theorems": [
    "C19_history"
   ],
   "note": "Proved in full for every input as stated."
  },
  {
   "property": "C20",
   "status": "proved",
   "theorems": [
    "C20_single_byte",
    "C20_verifies",
    "C20_order",
    "C20_byte"
   ],
   "note": "Proved in full for every input as stated."
  },
  {
   "property": "C21",
   "status": "proved",
   "theorems": [
    "C21_one_write"
   ],
   "note": "Proved in full for every input as stated."
  },
  {
   "property": "C22",
   "status": "partial",
   "theorems": [
    "C22_split_refuted",
    "C22_history_partial",
    "C22_two_writes_partial"
   ],
   "note": "The full statement is false (C22_split_refuted): each Write negates the previous checksum. Proved instead: the exact value after every history (alternating sum of the writes), and exactly when splitting in two is harmless."
  },
  {
   "property": "C23",
   "status": "proved",
   "theorems": [
    "C23_history"
   ],
   "note": "Proved in full for every input as stated."
  },
  {
   "property": "C24",
   "status": "partial",
   "theorems": [
    "C24_panic_refuted",
    "C24_value_refuted",
    "C24_panic_partial",
    "C24_value_partial",
    "C24_exact_partial",
    "C24_right_partial"
   ],
   "note": "The full statement is false: C24_panic_refuted (a 5804-byte write panics) and C24_value_refuted (a 5803-byte write overflows). Proved instead for every history: C24_exact_partial (panics exactly when some write is longer than 5803 bytes and not a multiple of 5803, otherwise the exact value) and C24_right_partial (the value is right exactly when the number of overflowed batches is a multiple of 255). Nothing is missing about the code as it is."
  },
  {
   "property": "C25",
   "status": "proved",
   "theorems": [
    "C25_one_write"
   ],
   "note": "Proved in full for every input as stated."
  },
  {
   "property": "C26",
   "status": "partial",
   "theorems": [
    "C26_split_refuted",
    "C26_history_partial",
    "C26_aligned_partial"
   ],
   "note": "The full statement is false (C26_split_refuted: an odd-length first write is zero padded). Proved instead: the exact value after every history, and split independence when all writes but the last have even length."
  },
  {
   "property": "C27",
   "status": "proved",
   "theorems": [
    "C27_one_write"
   ],
   "note": "Proved in full for every input as stated."
  },
  {
   "property": "C28",
   "status": "partial",
   "theorems": [
    "C28_split_refuted",
    "C28_history_partial",
    "C28_aligned_partial"
   ],
   "note": "The full statement is false (C28_split_refuted). Proved instead: the exact value after every history, and split independence when all writes but the last are multiples of 4 bytes."
  },
  {
   "property": "C29",
   "status": "proved",
   "theorems": [
    "C29_sum16",
    "C29_sum32",
    "C29_sum64",
    "C29_write",
    "C29_reset"
   ],
   "note": "Proved in full for every input as stated."
  },
  {
   "property": "C30",
   "status": "proved",
   "theorems": [
    "C30_change16",
    "C30_swap16",
    "C30_change32",
    "C30_swap32",
    "C30_change64",
    "C30_swap64",
    "C30_byte32",
    "C30_byte64"
   ],
   "note": "Proved in full for every input as stated."
  },
  {
   "property": "C31",
   "status": "proved",
   "theorems": [
    "C31_valid_unique",
    "C31_total"
   ],
   "note": "Proved in full for every input as stated."
  },
  {
   "property": "C32",
   "status": "proved",
   "theorems": [
    "C32_single_digit"
   ],
   "note": "Proved in full for every input as stated."
  },
  {
   "property": "C33",
   "status": "proved",
   "theorems": [
    "C33_transposition"
   ],
   "note": "Proved in full for every input as stated."
  },
  {
   "property": "C34",
   "status": "proved",
   "theorems": [
    "C34_uint_roundtrip",
    "C34_ip_roundtrip",
    "C34_value",
    "C34_other",
    "C34_order",
    "C34_addr"
   ],
   "note": "Proved in full for every input as stated."
  },
  {
   "property": "C35",
   "status": "proved",
   "theorems": [
    "C35_from_byte",
    "C35_from_big_byte",
    "C35_to_byte",
    "C35_to_byte_other"
   ],
   "note": "Proved in full for every input as stated."
  },
  {
   "property": "C36",
   "status": "partial",
   "theorems": [
    "C36_ipv4_partial",
    "C36_same_addresses_partial",
    "C36_refuted"
   ],
   "note": "The full statement is false (C36_refuted): CIDRs whose address is not IPv4 compare equal whenever their masks do. Proved in full for IPv4 (and IPv4-mapped) addresses, including that equality means the same set of addresses."
  },
  {
   "property": "C37",
   "status": "proved",
   "theorems": [
    "C37_bounds"
   ],
   "note": "Proved in full for every input as stated."
  },
  {
   "property": "C38",
   "status": "proved",
   "theorems": [
    "C38_coverage"
   ],
   "note": "Proved in full for every input as stated."
  },
  {
   "property": "C39",
   "status": "proved",
   "theorems": [
    "C39_canonical"
   ],
   "note": "Proved in full for every input as stated."
  },
  {
   "property": "C40",
   "status": "proved",
   "theorems": [
    "C40_shortest"
   ],
   "note": "Proved in full for every input as stated."
  },
  {
   "property": "C41",
   "status": "proved",
   "theorems": [
    "C41_order_free",
    "C41_same_set"
   ],
   "note": "Proved in full for every input as stated."
  },
  {
   "property": "C42",
   "status": "partial",
   "theorems": [
    "C42_range_partial",
    "C42_empty_partial",
    "C42_never_returns_partial",
    "C42_refuted"
   ],
   "note": "The full statement is false (C42_refuted): AddRange never returns when the range ends at 255.255.255.255 (C42_never_returns_partial, for every start and every number of rounds). Proved: for every other end it returns having added exactly start..end, and an empty range is a no-op."
  },
  {
   "property": "C43",
   "status": "proved",
   "theorems": [
    "C43_ip",
    "C43_ip_cidr",
    "C43_cidr"
   ],
   "note": "Proved in full for every input as stated."
  },
  {
   "property": "C44",
   "status": "proved",
   "theorems": [
    "C44_noop",
    "C44_idempotent"
   ],
   "note": "Proved in full for every input as stated."
  },
  {
   "property": "C45",
   "status": "proved",
   "theorems": [
    "C45_reference",
    "C45_unique"
   ],
   "note": "Proved in full for every input as stated."
  },
  {
   "property": "C46",
   "status": "proved",
   "theorems": [
    "C46_closure",
    "C46_constant"
   ],
   "note": "Proved in full for every input as stated."
  },
  {
   "property": "C47",
   "status": "partial",
   "theorems": [
    "C47_refuted",
    "C47_disjoint_partial"
   ],
   "note": "The full statement is false (C47_refuted): a larger CIDR replaces, and a covered one is dropped, without merge being called. Proved instead: a call disjoint from all others keeps its value (C47_disjoint_partial); C45 gives the exact values for every history."
  },
  {
   "property": "C48",
   "status": "proved",
   "theorems": [
    "C48_rebuild"
   ],
   "note": "Proved in full for every input as stated."
  },
  {
   "property": "C49",
   "status": "partial",
   "theorems": [
    "C49_refuted",
    "C49_ipv6_partial",
    "C49_whole_partial",
    "C49_any_partial"
   ],
   "note": "The full statement is false (C49_refuted): an IPv6 /33 covers all of IPv4. Proved instead, for every address and every mask: the IPv4 CIDR that is added in its place (C49_any_partial); C49_ipv6_partial and C49_whole_partial are its main cases."
  },
  {
   "property": "C50",
   "status": "proved",
   "theorems": [
    "C50_literal",
    "C50_text"
   ],
   "note": "Proved in full for every input as stated."
  },
  {
   "property": "C51",
   "status": "partial",
   "theorems": [
    "C51_sections_partial",
    "C51_text_partial",
    "C51_panics_partial",
    "C51_refuted"
   ],
   "note": "The full statement is false (C51_refuted): BytesToStringSep panics on empty input and whenever k does not divide the length. Proved: exactly when it returns, with the sections read back being the k-byte pieces of the input; it panics in every other case. C51_text_partial gives the exact text for every input on which it returns."
  },
  {
   "property": "C52",
   "status": "partial",
   "theorems": [
    "C52_lines_partial",
    "C52_text_partial",
    "C52_panics_partial",
    "C52_refuted"
   ],
   "note": "The full statement is false (C52_refuted): BytesToHexSep panics on empty input and whenever k does not divide the length. Proved: exactly when it returns, with the lines read back being the k-byte pieces of the input; it panics in every other case. C52_text_partial gives the exact text for every input on which it returns."
  },
  {
   "property": "C53",
   "status": "proved",
   "theorems": [
    "C53_no_panic",
    "C53_concatenation"
   ],
   "note": "Proved in full for every input as stated."
  },
  {
   "property": "C54",
   "status": "proved",
   "theorems": [
    "C54_published",
    "C54_compress128",
    "C54_compress160",
    "C54_compress256",
    "C54_compress320",
    "C54_padding"
   ],
   "note": "Proved in full for every input as stated."
  },
  {
   "property": "C55",
   "status": "proved",
   "theorems": [
    "C55_word_order",
    "C55_rotations",
    "C55_lengths",
    "C55_constants",
    "C55_permutation"
   ],
   "note": "Proved in full for every input as stated."
  },
  {
   "property": "C56",
   "status": "proved",
   "theorems": [
    "C56_sum_pure"
   ],
   "note": "Proved in full for every input as stated."
  },
  {
   "property": "C57",
   "status": "proved",
   "theorems": [
    "C57_no_panic",
    "C57_concatenation"
   ],
   "note": "Proved in full for every input as stated."
  },
  {
   "property": "C58",
   "status": "proved",
   "theorems": [
    "C58_published",
    "C58_message",
    "C58_any_length",
    "C58_compress"
   ],
   "note": "Proved in full for every input as stated."
  },
  {
   "property": "C59",
   "status": "proved",
   "theorems": [
    "C59_generated",
    "C59_sbox",
    "C59_sbox_permutation",
    "C59_entries",
    "C59_round_constants",
    "C59_lengths"
   ],
   "note": "Proved in full for every input as stated."
  },
  {
   "property": "C60",
   "status": "proved",
   "theorems": [
    "C60_sum_pure"
   ],
   "note": "Proved in full for every input as stated."
  },
  {
   "property": "C61",
   "status": "proved",
   "theorems": [
    "C61_reports",
    "C61_string_match",
    "C61_split"
   ],
   "note": "Proved in full for every input as stated."
  },
  {
   "property": "C62",
   "status": "proved",
   "theorems": [
    "C62_text",
    "C62_common",
    "C62_ascii"
   ],
   "note": "Proved in full for every input as stated."
  },
  {
   "property": "C63",
   "status": "proved",
   "theorems": [
    "C63_abbr"
   ],
   "note": "Proved in full for every input as stated."
  },
  {
   "property": "C64",
   "status": "partial",
   "theorems": [
    "C64_le_partial",
    "C64_be_partial",
    "C64_be_long_partial",
    "C64_refuted"
   ],
   "note": "False of the code: the destination is overwritten with a before b is read, so the result is 2*A (C64_refuted; exact laws C64_le_partial, C64_be_partial, C64_be_long_partial). Destinations with n < len x < 2n and n > 4, big endian, are covered by the general law C71_be."
  },
  {
   "property": "C65",
   "status": "partial",
   "theorems": [
    "C65_valid_partial",
    "C65_boundary_refuted",
    "C65_position_partial"
   ],
   "note": "False of the code (C65_boundary_refuted): a count of characters is used as a count of bytes, so a common start or end with multi-byte characters puts a marker inside a character. C65_position_partial is the exact position for all strings; it is the end of the common characters exactly when those are single bytes. C65_valid_partial: the lines are valid UTF-8 exactly when the markers stand between characters."
  },
  {
   "property": "C66",
   "status": "partial",
   "theorems": [
    "C66_nul_refuted",
    "C66_marker_partial",
    "C66_length_partial"
   ],
   "note": "False of the code (C66_nul_refuted): the marker slice is one byte longer than the longer string and that byte is always left NUL. C66_marker_partial gives the exact line for all strings under a lossless strings.Split: as specified, followed by one NUL."
  },
  {
   "property": "C67",
   "status": "proved",
   "theorems": [
    "C67_ripemd",
    "C67_whirlpool",
    "C67_report_ripemd",
    "C67_report_whirlpool"
   ],
   "note": "Proved in full for every input as stated."
  },
  {
   "property": "C68",
   "status": "partial",
   "theorems": [
    "C68_malformed_refuted",
    "C68_ripemd_partial",
    "C68_whirlpool_partial",
    "C68_report_ripemd_partial",
    "C68_report_whirlpool_partial"
   ],
   "note": "False of the code (C68_malformed_refuted): malformed hex is tested as the empty message. The partial theorems give the exact condition for well-formed and malformed input, both hash packages, any history."
  },
  {
   "property": "C69",
   "status": "proved",
   "theorems": [
    "C69_table",
    "C69_file"
   ],
   "note": "Proved in full for every input as stated."
  },
  {
   "property": "C70",
   "status": "partial",
   "theorems": [
    "C70_empty_refuted",
    "C70_string_partial"
   ],
   "note": "False of the empty table (C70_empty_refuted: the text ends in an unfinished sum); proved for every non-empty one."
  },
  {
   "property": "C71",
   "status": "proved",
   "theorems": [
    "C71_le",
    "C71_be"
   ],
   "note": "Proved in full for every input as stated."
  },
  {
   "property": "C72",
   "status": "proved",
   "theorems": [
    "C72_le"
   ],
   "note": "Proved in full for every input as stated."
  },
  {
   "property": "C73",
   "status": "partial",
   "theorems": [
    "C73_words_partial",
    "C73_small_partial",
    "C73_others_partial",
    "C73_shift_partial",
    "C73_low_partial",
    "C73_refuted"
   ],
   "note": "The full statement is false (C73_refuted: widths 3 and 5). Proved instead, for every width: multiples of four and widths 1 and 2 are right (C73_words_partial, C73_small_partial); C73_others_partial gives the exact sum and carry of every other width (b lands n mod 4 bytes too far up and its front is added again), C73_shift_partial the plain case, C73_low_partial that the lowest byte never changes. Nothing is missing about the code as it is."
  },
  {
   "property": "C74",
   "status": "proved",
   "theorems": [
    "C74_le",
    "C74_be",
    "C74_short"
   ],
   "note": "Proved in full for every input as stated."
  },
  {
   "property": "C75",
   "status": "partial",
   "theorems": [
    "C75_le_partial",
    "C75_le_same_partial",
    "C75_le_refuted",
    "C75_be_partial",
    "C75_short",
    "C75_be_refuted"
   ],
   "note": "padLE does nothing when src is a shorter slice starting where dst does (C75_le_refuted, C75_le_same_partial), otherwise as stated (C75_le_partial). padBE copies min(len dst, len src) bytes when both are longer than n (C75_be_refuted); exact law C75_be_partial."
  },
  {
   "property": "C76",
   "status": "partial",
   "theorems": [
    "C76_last_partial",
    "C76_mapped_partial",
    "C76_first_partial",
    "C76_refuted"
   ],
   "note": "False of the code: LastIpv4 reads the first four bytes of the address, zero in the 16-byte form, and FirstIpv4 returns the address with its host bits (C76_refuted). Proved: LastIpv4 is right for every 4-byte address, host bits or not; exactly what it gives for 16-byte ones; FirstIpv4 is right exactly without host bits."
  },
  {
   "property": "C77",
   "status": "proved",
   "theorems": [
    "C77_add",
    "C77_equal",
    "C77_first",
    "C77_last",
    "C77_uint"
   ],
   "note": "Proved in full for every input as stated."
  },
  {
   "property": "C78",
   "status": "proved",
   "theorems": [
    "C78_reference",
    "C78_unique",
    "C78_pure"
   ],
   "note": "Proved in full for every input as stated."
  },
  {
   "property": "C79",
   "status": "partial",
   "theorems": [
    "C79_one_partial",
    "C79_range_partial",
    "C79_refuted",
    "C79_nil"
   ],
   "note": "False of the code for AddRange, which adds block by block: blocks before the panic stay (C79_refuted). Proved: AddIp and AddCidr leave the tree as it was; a panicking AddRange leaves exactly the addresses before some point of the range added; the nil clause in full."
  },
  {
   "property": "C80",
   "status": "proved",
   "theorems": [
    "C80_amortized",
    "C80_singles",
    "C80_levels"
   ],
   "note": "Proved in full for every input as stated."
  },
  {
   "property": "C81",
   "status": "partial",
   "theorems": [
    "C81_partial",
    "C81_refuted"
   ],
   "note": "False of the code: root is read before and overwritten after the merge calls, so such additions are lost (C81_refuted). Proved: for any callback whatever, a call that returns leaves exactly the addresses from before it and its own (C81_partial)."
  },
  {
   "property": "C82",
   "status": "proved",
   "theorems": [
    "C82_one",
    "C82_range"
   ],
   "note": "Proved in full for every input as stated."
  },
  {
   "property": "C83",
   "status": "proved",
   "theorems": [
    "C83_split",
    "C83_valid",
    "C83_unique",
    "C83_report"
   ],
   "note": "Proved in full for every input as stated."
  },
  {
   "property": "C84",
   "status": "partial",
   "theorems": [
    "C84_characters_refuted",
    "C84_valid_partial",
    "C84_boundary_partial",
    "C84_ascii_partial"
   ],
   "note": "False of the code (C84_characters_refuted): Abbr counts and cuts bytes, so eleven two-byte characters are shortened, inside the tenth. C84_valid_partial says exactly when the result is valid UTF-8 and when it is the string itself, C84_ascii_partial that all is well for ASCII."
  },
  {
   "property": "C85",
   "status": "proved",
   "theorems": [
    "C85_memory_contract",
    "C85_write_takes_a_copy"
   ],
   "note": "Proved in full for every input as stated. The hypotheses on Write are the lengths C24 says Fletcher-16 takes without a panic and a Whirlpool message below 2^64 bytes."
  },
  {
   "property": "C86",
   "status": "proved",
   "theorems": [
    "C86_ripemd",
    "C86_whirlpool"
   ],
   "note": "Proved in full for every input as stated."
  },
  {
   "property": "C87",
   "status": "partial",
   "theorems": [
    "C87_memory_contract_partial",
    "C87_trees_keep_nothing",
    "C87_refuted"
   ],
   "note": "False of FirstIpv4, which returns the IP slice of the CIDR itself: storing into the result changes the CIDR (C87_refuted). C87_memory_contract_partial proves the statement for every other function, in any program, with FirstIpv4's exact law (the same slice, nothing changes); C87_trees_keep_nothing spells out that stores never change what a tree lists."
  },
  {
   "property": "C88",
   "status": "proved",
   "theorems": [
    "C88_bcc",
    "C88_lrc",
    "C88_fletcher16",
    "C88_fletcher32",
    "C88_fletcher64",
    "C88_exact16",
    "C88_exact32",
    "C88_exact64"
   ],
   "note": "Proved in full for every input as stated."
  },
  {
   "property": "C89",
   "status": "proved",
   "theorems": [
    "C89_two16",
    "C89_two32",
    "C89_two64",
    "C89_coprime16",
    "C89_coprime32",
    "C89_coprime64"
   ],
   "note": "Proved in full for every input as stated."
  },
  {
   "property": "C90",
   "status": "proved",
   "theorems": [
    "C90_twin",
    "C90_odd_swap",
    "C90_even_swap"
   ],
   "note": "Proved in full for every input as stated."
  },
  {
   "property": "C91",
   "status": "proved",
   "theorems": [
    "C91_order",
    "C91_prefix",
    "C91_encode_pieces",
    "C91_decode_pieces"
   ],
   "note": "Proved in full for every input as stated."
  },
  {
   "property": "C92",
   "status": "proved",
   "theorems": [
    "C92_le",
    "C92_be"
   ],
   "note": "Proved in full for every input as stated."
  },
  {
   "property": "C93",
   "status": "proved",
   "theorems": [
    "C93_goroutines",
    "C93_terminates",
    "C93_sharing_needed"
   ],
   "note": "Proved in full as stated. Sum of a shared object is reading it; C93_sharing_needed shows that the program's part of the bargain (no Write to a shared object, no Sum into shared spare capacity) is needed."
  },
  {
   "property": "C94",
   "status": "proved",
   "theorems": [
    "C94_hmac_contract",
    "C94_sum_of_nil",
    "C94_every_key_and_text"
   ],
   "note": "Proved in full as stated, for crypto/hmac of Go 1.19 as modelled in Model/Hmac.v (the client is not part of /repo). C94_every_key_and_text shows that the states exist for every hash, key and text."
  },
  {
   "property": "C95",
   "status": "proved",
   "theorems": [
    "C95_goroutines",
    "C95_terminates",
    "C95_one_call",
    "C95_xor_in_parts",
    "C95_zero_in_parts",
    "C95_additions",
    "C95_big_endian_reach"
   ],
   "note": "Proved in full as stated. C95_one_call ties the access-by-access code to Model/Bytes.v; C95_big_endian_reach shows that the exception for big-endian additions is needed: with a longer than the width two neighbouring additions race."
  },
  {
   "property": "C96",
   "status": "proved",
   "theorems": [
    "C96_join_bcc",
    "C96_join_lrc",
    "C96_join16",
    "C96_join32",
    "C96_join64",
    "C96_patch_bcc",
    "C96_patch_lrc",
    "C96_patch16",
    "C96_patch32",
    "C96_patch64",
    "C96_slide_bcc",
    "C96_slide_lrc",
    "C96_slide16",
    "C96_slide32",
    "C96_slide64"
   ],
   "note": "Proved for Fletcher-16 writes of at most 5802 bytes (C24 shows larger ones overflow) and, for LRC, single writes (C22 shows what several do). words_in counts the words of each write, since each write fills its last word up (C26, C28)."
  },
  {
   "property": "C97",
   "status": "proved",
   "theorems": [
    "C97_check16",
    "C97_check32",
    "C97_check64",
    "C97_check_bcc",
    "C97_check_lrc"
   ],
   "note": "Proved for Fletcher-16 messages of at most 5800 bytes; check_words is computed from the value alone."
  },
  {
   "property": "C98",
   "status": "proved",
   "theorems": [
    "C98_ripemd",
    "C98_whirlpool",
    "C98_ripemd_collisions",
    "C98_whirlpool_collisions"
   ],
   "note": "Proved in full as stated; that colliding messages exist is C86_ripemd_nonvacuous and C86_whirlpool_nonvacuous."
  },
  {
   "property": "C99",
   "status": "proved",
   "theorems": [
    "C99_goroutines",
    "C99_terminates",
    "C99_one_answer",
    "C99_sharing_needed"
   ],
   "note": "Proved in full as stated; C99_sharing_needed shows that the rules of sharing are needed. Ranges that end at 255.255.255.255 are excluded since AddRange does not come to an end on them (C42)."
  },
  {
   "property": "C100",
   "status": "proved",
   "theorems": [
    "C100_hashes",
    "C100_message",
    "C100_bytes",
    "C100_net"
   ],
   "note": "Proved in full as stated, for the access-by-access models. What is counted are accesses to memory, not arithmetic: the rounds of a block are a computation on values already read (a fixed number of them per block). Ranges that end at 255.255.255.255 are excluded (C42)."
  },
  {
   "property": "C101",
   "status": "proved",
   "theorems": [
    "C101_hashes",
    "C101_goroutines",
    "C101_bytes"
   ],
   "note": "Proved in full as stated, for the access-by-access models of C93 and C95. Not a statement about timing or caches: constant tables are not memory in the model (Whirlpool's table lookups depend on the text), and neither instructions nor branches are counted. Package net is not claimed; its walks follow the bits of the addresses."
  },
  {
   "property": "C102",
   "status": "partial",
   "theorems": [
    "C102_refuted",
    "C102_partial",
    "C102_as_new_partial"
   ],
   "note": "False of the code: ListCidr on such a tree panics until an address was added, and an addition that completes a block panics (C102_refuted). Proved instead, for all histories: ListCidr panics exactly while no address has been added; from then on the tree holds the blocks of the reference of C78 in which every merge panics, and the calls that return are those of that reference; for all arguments it behaves as a tree of New with a merge that panics, except that an empty one cannot be listed."
  },
  {
   "property": "C103",
   "status": "proved",
   "theorems": [
    "C103_goroutines",
    "C103_terminates",
    "C103_sharing_needed"
   ],
   "note": "Proved in full as stated. C103_sharing_needed shows that a goroutine that stores into a shared slice while another encodes it is a race and can produce a text of neither value."
  },
  {
   "property": "C104",
   "status": "proved",
   "theorems": [
    "C104_rearranged",
    "C104_any_order",
    "C104_overlap_matters"
   ],
   "note": "Proved in full for every input as stated."
  },
  {
   "property": "C105",
   "status": "proved",
   "theorems": [
    "C105_same_listing",
    "C105_any_order",
    "C105_both",
    "C105_divided",
    "C105_size"
   ],
   "note": "Proved in full for every input as stated."
  },
  {
   "property": "C106",
   "status": "proved",
   "theorems": [
    "C106_work",
    "C106_call"
   ],
   "note": "Proved in full for every input as stated."
  },
  {
   "property": "C107",
   "status": "proved",
   "theorems": [
    "C107_call",
    "C107_goroutines"
   ],
   "note": "Proved in full for every input as stated."
  },
  {
   "property": "C108",
   "status": "proved",
   "theorems": [
    "C108_values",
    "C108_address_order",
    "C108_apart",
    "C108_total",
    "C108_count"
   ],
   "note": "Proved in full for every input as stated."
  },
  {
   "property": "C109",
   "status": "proved",
   "theorems": [
    "C109_atomic",
    "C109_safe",
    "C109_terminates",
    "C109_after",
    "C109_total",
    "C109_lock_needed"
   ],
   "note": "Proved in full as stated. C109_lock_needed shows that without the lock, or with RLock only, the same workers race and a text can be lost."
  },
  {
   "property": "C110",
   "status": "proved",
   "theorems": [
    "C110_atomic",
    "C110_safe",
    "C110_terminates",
    "C110_after",
    "C110_one_outcome",
    "C110_total",
    "C110_lock_needed"
   ],
   "note": "Proved in full as stated. C110_lock_needed shows that without the lock, or with RLock only, two additions race and one can be lost."
  },
  {
   "property": "C111",
   "status": "proved",
   "theorems": [
    "C111_count_fun",
    "C111_bcc",
    "C111_lrc",
    "C111_fletcher16",
    "C111_fletcher32",
    "C111_fletcher64",
    "C111_never16",
    "C111_never32",
    "C111_never64",
    "C111_luhn"
   ],
   "note": "Proved in full as stated. C111_four shows that four is reached."
  },
  {
   "property": "C112",
   "status": "proved",
   "theorems": [
    "C112_calls_happen_at_once",
    "C112_calls_end",
    "C112_no_endless_run",
    "C112_deadlock",
    "C112_relay",
    "C112_publication",
    "C112_relay_ends",
    "C112_publication_ends",
    "C112_sync_needed"
   ],
   "note": "Proved in full as stated. C112_sync_needed shows that goroutines whose calls get in each other's way do race."
  },
  {
   "property": "C113",
   "status": "proved",
   "theorems": [
    "C113_snapshots",
    "C113_no_deadlock",
    "C113_copy_needed"
   ],
   "note": "Proved in full as stated. C113_copy_needed shows that a keeper that shows the tree itself races with an onlooker."
  },
  {
   "property": "C114",
   "status": "proved",
   "theorems": [
    "C114_letters",
    "C114_once",
    "C114_none_lost",
    "C114_no_deadlock",
    "C114_ends_only_then",
    "C114_text_needed"
   ],
   "note": "Proved in full as stated. C114_text_needed shows that a sender that hands over its buffer races with the reader."
  },
  {
   "property": "C115",
   "status": "proved",
   "theorems": [
    "C115_nil_tree"
   ],
   "note": "Proved in full as stated."
  },
  {
   "property": "C116",
   "status": "proved",
   "theorems": [
    "C116_shared_key",
    "C116_all_end",
    "C116_order_needed",
    "C116_wait_needed"
   ],
   "note": "Proved in full as stated. C116_order_needed and C116_wait_needed show that the key has to be filled before it is shown, and to stay until all are finished."
  }
 ]
}