{"id": "C01", "title": "Hex encode/decode round trip", "statement": "Decoding what hex.FromBytes produced gives back exactly the original bytes with no error, through both ToBytes and ToBytesFast.", "quantifier": "every byte slice of any length, both build variants (default 256-byte table, and tag `tiny`)", "why_tests_cant": "there are infinitely many slices; tests sample a few dozen", "anchors": ["encoding/hex/hex.go: FromBytes, ToBytes, ToBytesFast", "encoding/hex/hex_256b.go: decode", "encoding/hex/hex_tiny.go: decode"]}
{"id": "C02", "title": "Hex encoding is canonical upper case, two digits per byte", "statement": "hex.FromBytes returns exactly the concatenation, in order, of the two-digit upper-case hexadecimal numeral of each byte; its length is 2*len(src); distinct inputs give distinct outputs.", "quantifier": "every byte slice", "why_tests_cant": "infinitely many inputs", "anchors": ["encoding/hex/hex.go: FromBytes, hexTable"]}
{"id": "C03", "title": "ToBytes accepts exactly the well-formed hex strings", "statement": "hex.ToBytes returns no error if and only if the string has even length and every character is in 0-9, a-f, A-F; on success the result has length n/2 and byte k is 16*digit(2k)+digit(2k+1).  It never panics.", "quantifier": "every byte string, both build variants", "why_tests_cant": "acceptance must be decided for all strings, including every invalid byte in every position", "anchors": ["encoding/hex/hex.go: ToBytes"]}
{"id": "C04", "title": "ToBytes reports the first offending character", "statement": "When the string holds a non-hex character, the error carries the value and the index of the left-most non-hex character (even when the length is odd as well); when all characters are hex and the length is odd, the error is ErrLength; on any error no slice is returned.", "quantifier": "every byte string, both build variants", "why_tests_cant": "needs every combination of positions of invalid characters and parity", "anchors": ["encoding/hex/hex.go: ToBytes, InvalidHexAt, ErrLength"]}
{"id": "C05", "title": "ToBytesFast agrees with ToBytes", "statement": "ToBytesFast returns nil exactly when ToBytes returns an error, and otherwise the same bytes as a non-nil slice.", "quantifier": "every byte string, both build variants", "why_tests_cant": "two separate loops must agree on all inputs", "anchors": ["encoding/hex/hex.go: ToBytes, ToBytesFast"]}
{"id": "C06", "title": "The tiny build behaves like the default build", "statement": "FromBytes, ToBytes (result and error) and ToBytesFast give identical outcomes in the default build and in the build with tag `tiny`.", "quantifier": "every byte string", "why_tests_cant": "tests of one `go test` run execute only one of the two builds", "anchors": ["encoding/hex/hex_256b.go: decode", "encoding/hex/hex_tiny.go: decode"]}
{"id": "C07", "title": "Decoding is case-insensitive and re-encoding normalises", "statement": "Changing the case of letters in a hex string never changes the bytes ToBytes returns, nor the kind or the place of its error; FromBytes applied to a successful decode gives the upper-cased string.", "quantifier": "every byte string", "why_tests_cant": "infinitely many inputs", "anchors": ["encoding/hex/hex.go: FromBytes, ToBytes"]}
{"id": "C08", "title": "The invalid-hex error message identifies the fault", "statement": "The text of the error is `Invalid hex: <char> @ <decimal index>` where <char> is the UTF-8 form of the offending byte, and two errors with different byte or position have different texts.", "quantifier": "every byte value and every position", "why_tests_cant": "infinitely many positions", "anchors": ["encoding/hex/hex.go: invalidHexAtError.Error, InvalidHexAt"]}
{"id": "C09", "title": "Zero clears exactly its slice", "statement": "After bytes.Zero(target) every byte of target is 0 and no byte of memory outside target has changed.", "quantifier": "every slice length and every memory content", "why_tests_cant": "loop runs in strides of 8 with a tail; all lengths matter", "anchors": ["bytes/Zero.go: Zero"]}
{"id": "C10", "title": "XorEq xors the common prefix and nothing else", "statement": "bytes.XorEq(dst,other) returns min(len(dst),len(other)); the first that many bytes of dst become dst[i]^other[i] (old values); nothing else changes. Holds whenever the slices are disjoint or dst starts at or before other; when dst starts inside other, bytes of other already updated count with their new value. When the slices are disjoint, doing it twice restores memory.", "quantifier": "every memory, every pair of slices, every overlap", "why_tests_cant": "aliasing and all lengths", "anchors": ["bytes/Xor.go: XorEq"]}
{"id": "C11", "title": "Little-endian addition is integer addition", "statement": "For w in 16,32,64,128,256,512 with n=w/8 and len(sum)>=n, Add<w>LE(sum,a,b) returns no error, leaves in sum[0:n] the little-endian form of A+B mod 2^w and returns carry = (A+B) div 2^w in {0,1}, where A and B are the little-endian values of the first n bytes of a and b (shorter inputs are zero extended at the end). No byte outside sum[0:n] changes.", "quantifier": "every memory and all slices where b does not overlap sum[0:n] and a may overlap arbitrarily except starting at sum with 0<len(a)<n", "why_tests_cant": "2^1024 operand pairs; carry chains; all short lengths", "anchors": ["bytes/AddLE.go: Add16LE..Add512LE, addAnyLE, addEq32LE, addEq16LE", "bytes/pad.go: padLE", "bytes/Zero.go"]}
{"id": "C12", "title": "Big-endian addition is integer addition", "statement": "For w in 16..512 with n=w/8 and len(sum)>=n, Add<w>BE(sum,a,b) with len(a)<=n and len(b)<=n returns no error, leaves in sum[0:n] the big-endian form of A+B mod 2^w and returns carry=(A+B) div 2^w in {0,1}, where A and B are the big-endian values of a and b (shorter inputs are zero extended at the start). No byte outside sum[0:n] changes.", "quantifier": "every memory and all slices with len(a),len(b)<=n and a, b disjoint from sum", "why_tests_cant": "2^1024 operand pairs; carry chains; all short lengths", "anchors": ["bytes/AddBE.go: Add16BE..Add512BE, addAnyBE, addEq32BE, addEq16BE", "bytes/pad.go: padBE"]}
{"id": "C13", "title": "Over-long operands: only the first n bytes are used", "statement": "For every Add function, bytes of a and b after the first n are ignored and bytes of sum after the first n are left alone (`Add the first n bytes of two slices`; `if len(in)>n only n bytes will be used`).", "quantifier": "every operand length", "why_tests_cant": "lengths above n are unbounded", "anchors": ["bytes/AddLE.go", "bytes/AddBE.go", "bytes/pad.go: padBE"]}
{"id": "C14", "title": "Too small a destination is reported, not a crash", "statement": "If len(sum)<n then every Add function returns a non-nil error, carry 0, and leaves memory unchanged; it does not panic.", "quantifier": "every sum shorter than the width, both platforms", "why_tests_cant": "must hold for each width and all lengths", "anchors": ["bytes/Add.go: Add16, Add32, Add64..Add512", "bytes/AddLE.go", "bytes/AddBE.go", "bytes/pad.go"]}
{"id": "C15", "title": "Platform addition follows the native byte order", "statement": "Add16..Add512 compute exactly what the LE functions compute on a little-endian platform and what the BE functions compute on a big-endian platform, when the destination is large enough.", "quantifier": "both platforms, all inputs", "why_tests_cant": "a test run sees one platform only", "anchors": ["bytes/Add.go", "endian/endian.go: init, Platform"]}
{"id": "C16", "title": "Addition commutes", "statement": "Swapping a and b changes neither the carry nor the bytes left in sum[0:n].", "quantifier": "all operands not overlapping sum", "why_tests_cant": "infinitely many operand lengths", "anchors": ["bytes/AddLE.go", "bytes/AddBE.go"]}
{"id": "C17", "title": "In-place accumulation", "statement": "Add(x, x, b) (destination aliased with the first operand) adds b to x in place; and an operand that is a prefix of the destination, Add(x, x[:k], b), still counts as its own k bytes only.", "quantifier": "all aliasing patterns of a with sum starting at the same address", "why_tests_cant": "aliasing is a property of addresses which value-based tests ignore", "anchors": ["bytes/pad.go: padLE, padBE"]}
{"id": "C18", "title": "Endianness detection is correct and never panics", "statement": "After package initialisation endian.Platform is LittleEndian exactly when storing a uint16 puts the low byte first, BigEndian exactly when the high byte is first; Network and SourceCode are BigEndian; the panic is unreachable.", "quantifier": "both memory layouts of uint16", "why_tests_cant": "a test run sees one platform only", "anchors": ["endian/endian.go: init"]}
{"id": "C19", "title": "BCC is the xor of everything written, however it is split", "statement": "After any sequence of Write, Sum, Sum8 and Reset on a bcc hash, Sum8 is the xor of all bytes written since the last Reset (or creation); Write returns (len(p), nil); Sum(in) = in followed by that byte; Sum does not change the state.", "quantifier": "every finite history of calls with every data", "why_tests_cant": "histories and data are unbounded", "anchors": ["checksum/bcc/bcc.go"]}
{"id": "C20", "title": "BCC detects every single-byte change and verifies to zero", "statement": "Changing one byte of a message (same length) changes its BCC; a message followed by its own BCC has BCC 0; the BCC does not depend on byte order.", "quantifier": "every message, every position", "why_tests_cant": "quantifies over all messages", "anchors": ["checksum/bcc/bcc.go"]}
{"id": "C21", "title": "LRC of one write is the two's complement of the byte sum", "statement": "For a fresh lrc hash and one Write(p), Sum8 = (-sum(p)) mod 256, so the bytes of p plus the checksum add to 0 mod 256.", "quantifier": "every byte slice", "why_tests_cant": "infinitely many inputs", "anchors": ["checksum/lrc/lrc.go: update"]}
{"id": "C22", "title": "LRC is independent of how the data is split into writes", "statement": "As io.Writer/hash.Hash require, writing p then q gives the same checksum as writing p++q.", "quantifier": "every finite sequence of writes", "why_tests_cant": "all histories", "anchors": ["checksum/lrc/lrc.go: update, Write"]}
{"id": "C23", "title": "Fletcher-16 value", "statement": "For every history of writes since the last Reset, each at most 5802 bytes, Sum16 is b*256+a where a is the sum of all bytes mod 255 and b the sum of all running sums mod 255.", "quantifier": "every history of writes of at most 5802 bytes each", "why_tests_cant": "intermediate 32-bit sums must not overflow for any content and history", "anchors": ["checksum/fletcher/fletcher16.go"]}
{"id": "C24", "title": "Fletcher-16 accepts every write length", "statement": "Write never panics and Sum16 equals the Fletcher-16 definition for writes of any length.", "quantifier": "every write length and content", "why_tests_cant": "requires long inputs with specific lengths and contents; repository tests stop at 20 bytes", "anchors": ["checksum/fletcher/fletcher16.go: update, c1Overflow"]}
{"id": "C25", "title": "Fletcher-32 value for a single write of any length", "statement": "For a fresh hash and one Write(p), Sum32 is b*65536+a over the little-endian 16-bit words of p (odd tail zero extended), a = sum of words mod 65535, b = sum of running sums mod 65535; never panics, 64-bit accumulators never overflow.", "quantifier": "every byte slice of any length", "why_tests_cant": "batches of 23726746 bytes cannot be exercised exhaustively", "anchors": ["checksum/fletcher/fletcher32.go: update"]}
{"id": "C26", "title": "Fletcher-32 is independent of how data is split", "statement": "Writing p then q gives the same checksum as writing p++q.", "quantifier": "every split", "why_tests_cant": "all histories", "anchors": ["checksum/fletcher/fletcher32.go: update, Write"]}
{"id": "C27", "title": "Fletcher-64 value for a single write of any length", "statement": "For a fresh hash and one Write(p), Sum64 is b*2^32+a over the little-endian 32-bit words of p (short tail zero extended), sums mod 2^32-1; never panics, accumulators never overflow although the batch length 92681 is not a multiple of 4.", "quantifier": "every byte slice of any length", "why_tests_cant": "batch boundaries inside words only occur beyond 92681 bytes", "anchors": ["checksum/fletcher/fletcher64.go: update"]}
{"id": "C28", "title": "Fletcher-64 is independent of how data is split", "statement": "Writing p then q gives the same checksum as writing p++q.", "quantifier": "every split", "why_tests_cant": "all histories", "anchors": ["checksum/fletcher/fletcher64.go: update, Write"]}
{"id": "C29", "title": "Fletcher interface laws", "statement": "For each Fletcher size: Sum(in) = in followed by the big-endian bytes of Sum16/32/64; its length grows by Size(); Sum does not change the state; Reset returns to the state of a new hash; Write returns (len(p), nil).", "quantifier": "every reachable state, every in", "why_tests_cant": "all histories", "anchors": ["checksum/fletcher/fletcher16.go", "checksum/fletcher/fletcher32.go", "checksum/fletcher/fletcher64.go"]}
{"id": "C30", "title": "Fletcher detects single-word changes", "statement": "Replacing one byte (16-bit word, 32-bit word) of a message by a value that differs modulo 255 (65535, 2^32-1) always changes the Fletcher-16 (32, 64) checksum; swapping two adjacent words that differ in this way also changes it.", "quantifier": "every message and position (Fletcher-16: up to 5802 bytes)", "why_tests_cant": "quantifies over all messages", "anchors": ["checksum/fletcher/fletcher16.go", "checksum/fletcher/fletcher32.go", "checksum/fletcher/fletcher64.go"]}
{"id": "C31", "title": "Luhn digit makes the number valid, and is the only one", "statement": "luhn.Checksum(i) is a digit 0-9; writing it after the decimal digits of i gives a number that passes the Luhn test; no other digit does.", "quantifier": "every uint64 i, every decimal writing of it (leading zeros included)", "why_tests_cant": "2^64 inputs", "anchors": ["checksum/luhn/luhn.go: Checksum"]}
{"id": "C32", "title": "Luhn detects every single-digit error", "statement": "Changing one decimal digit of i changes Checksum(i).", "quantifier": "every uint64 and every digit position", "why_tests_cant": "2^64 inputs", "anchors": ["checksum/luhn/luhn.go: Checksum"]}
{"id": "C33", "title": "Luhn detects adjacent transpositions except 09/90", "statement": "Swapping two adjacent different digits changes Checksum(i), except when the digits are 0 and 9, when it never does.", "quantifier": "every uint64 and every adjacent digit pair", "why_tests_cant": "2^64 inputs", "anchors": ["checksum/luhn/luhn.go: Checksum"]}
{"id": "C34", "title": "IPv4/uint32 conversion", "statement": "Ipv4ToUint(Ipv4FromUint(u)) = u; for a 4-byte address Ipv4FromUint(Ipv4ToUint(ip)) = ip; an IPv4-mapped 16-byte address converts like its 4-byte form; every other address gives 0; the number is big-endian a.b.c.d and order preserving.", "quantifier": "every uint32, every byte slice as address", "why_tests_cant": "2^32 values, and slices of every length", "anchors": ["net/Ipv4.go: Ipv4ToUint, Ipv4FromUint"]}
{"id": "C35", "title": "Mask/prefix-length conversion", "statement": "MaskFromByte(b) for b<=32 is the 4-byte mask with exactly the first b bits set and MaskToByte inverts it; MaskToByte of a non-canonical mask is 0; for b>32 MaskFromByte is 0.0.0.0.", "quantifier": "every byte value, every mask slice", "why_tests_cant": "byte wrap-around cases; all non-canonical masks", "anchors": ["net/Mask.go: MaskFromByte, MaskToByte"]}
{"id": "C36", "title": "CidrEqual decides equality of IPv4 CIDRs", "statement": "CidrEqual(a,b) is true exactly when a and b have the same mask and the same address, and for canonical IPv4 CIDRs exactly when they contain the same addresses.", "quantifier": "every pair of IPNet values (v4, v4-mapped and v6)", "why_tests_cant": "all pairs", "anchors": ["net/Cidr.go: CidrEqual"]}
{"id": "C37", "title": "First and last address bound the CIDR", "statement": "For an IPv4 CIDR as ParseCIDR returns it, FirstIpv4 and LastIpv4 are contained in it and an address is contained exactly when it lies numerically between them.", "quantifier": "every canonical IPv4 CIDR, every address", "why_tests_cant": "2^32 x 33 CIDRs", "anchors": ["net/Cidr.go: FirstIpv4, LastIpv4"]}
{"id": "C38", "title": "ListCidr covers exactly what was added", "statement": "After any sequence of AddIp, AddCidr and AddRange calls (IPv4 arguments, ranges not ending at 255.255.255.255) an address is inside some listed CIDR if and only if some call added it.", "quantifier": "every finite history of calls, every merge function, every address", "why_tests_cant": "all histories", "anchors": ["net/IpTree.go: New, AddIp, AddCidr, AddRange, ListCidr, add, each"]}
{"id": "C39", "title": "ListCidr is canonical: ascending, disjoint, aligned, unmergeable", "statement": "The listed CIDRs are in strictly ascending order, pairwise disjoint, each is a valid aligned IPv4 CIDR (4-byte address with no host bits, prefix 0-32), and no two of them are the two halves of a larger CIDR.", "quantifier": "every reachable tree", "why_tests_cant": "all histories", "anchors": ["net/IpTree.go: ListCidr, each, add"]}
{"id": "C40", "title": "ListCidr is the shortest description", "statement": "No list of CIDRs covering exactly the same addresses is shorter than ListCidr.", "quantifier": "every reachable tree, every alternative list of CIDRs", "why_tests_cant": "quantifies over all alternative descriptions", "anchors": ["net/IpTree.go", "README.md: IpTree"]}
{"id": "C41", "title": "Coverage does not depend on order, repetition or form of the additions", "statement": "Two histories that add the same set of addresses list exactly the same CIDRs (ignoring values).", "quantifier": "every two histories", "why_tests_cant": "all pairs of histories", "anchors": ["net/IpTree.go"]}
{"id": "C42", "title": "AddRange terminates and adds exactly start..end", "statement": "AddRange(start,end,v) returns, having added exactly the addresses start..end inclusive (nothing when start>end).", "quantifier": "every start and end", "why_tests_cant": "2^64 pairs; termination", "anchors": ["net/IpTree.go: AddRange"]}
{"id": "C43", "title": "The three ways of adding agree", "statement": "AddIp(ip), AddCidr(ip/32) and AddRange(ip,ip) leave the same tree; AddCidr(c) and AddRange(first(c),last(c)) leave the same tree, when the range does not end at 255.255.255.255.", "quantifier": "every tree, address, CIDR, value", "why_tests_cant": "all trees and CIDRs", "anchors": ["net/IpTree.go: AddIp, AddCidr, AddRange"]}
{"id": "C44", "title": "Adding what is already covered changes nothing", "statement": "Adding an address, CIDR or range already covered leaves the list (including values) unchanged; in particular additions are idempotent.", "quantifier": "every reachable tree", "why_tests_cant": "all histories", "anchors": ["net/IpTree.go: add"]}
{"id": "C45", "title": "Values follow the coalescing rule", "statement": "ListCidr with values equals the reference block set: a covered block is ignored; otherwise the new block replaces all blocks inside it; then, while the sibling block is present, both are replaced by their parent with value merge(left value, right value).", "quantifier": "every history, every merge function", "why_tests_cant": "all histories and all merge functions", "anchors": ["net/IpTree.go: add, ListCidr"]}
{"id": "C46", "title": "Every listed value comes from the added values", "statement": "Each listed value is built from added values by merge only; if all added values equal v and merge(v,v)=v then every listed value is v.", "quantifier": "every history and merge function", "why_tests_cant": "all histories", "anchors": ["net/IpTree.go: add"]}
{"id": "C47", "title": "No added value is lost", "statement": "When additions overlap, merge combines the overlapping values (`repeat/overlapping CIDR will merge`), so each value added is represented in the listed values.", "quantifier": "every history", "why_tests_cant": "all histories", "anchors": ["net/IpTree.go: add", "README.md"]}
{"id": "C48", "title": "Rebuilding from a listing", "statement": "Adding the entries of ListCidr, in listed order, to a fresh tree gives a tree with the same listing, values included.", "quantifier": "every reachable tree", "why_tests_cant": "all histories", "anchors": ["net/IpTree.go"]}
{"id": "C49", "title": "AddCidr of something that is not an IPv4 CIDR does not widen the set", "statement": "AddCidr with an IPv6 CIDR or a non-canonical mask never makes IPv4 addresses covered that the CIDR does not contain.", "quantifier": "every IPNet value", "why_tests_cant": "all masks", "anchors": ["net/IpTree.go: AddCidr", "net/Mask.go: MaskToByte"]}
{"id": "C50", "title": "BytesToString is a Go literal for the bytes", "statement": "BytesToString returns for every input a double-quoted literal of \\x escapes which, read as a Go interpreted string literal, denotes exactly the input; it never panics.", "quantifier": "every byte slice", "why_tests_cant": "infinitely many inputs", "anchors": ["codegen/BytesToString.go: BytesToString"]}
{"id": "C51", "title": "BytesToStringSep is a Go string expression for the bytes", "statement": "BytesToStringSep(in,k) for k>=1 returns quoted sections of k bytes joined by + whose concatenation denotes in.", "quantifier": "every byte slice and every k>=1", "why_tests_cant": "depends on the remainder of len(in) modulo k; repository tests use exact multiples only", "anchors": ["codegen/BytesToString.go: BytesToStringSep"]}
{"id": "C52", "title": "BytesToHexSep is a Go composite literal body for the bytes", "statement": "BytesToHexSep(in,k) for k>=1 returns {0x.., 0x.., ...} with a line break after every k elements, and reading the elements back gives in.", "quantifier": "every byte slice and every k>=1", "why_tests_cant": "depends on the remainder of len(in) modulo k", "anchors": ["codegen/BytesToHexSep.go: BytesToHexSep"]}
{"id": "C53", "title": "RIPEMD digest depends only on the concatenation of the writes", "statement": "For each of RIPEMD-128/160/256/320: after any history of Write, Sum and Reset calls, Sum(nil) equals the digest a fresh hash gives after a single Write of everything written since the last Reset; Write returns (len(p),nil); no call panics.", "quantifier": "every history, every split, every data", "why_tests_cant": "block boundary and padding cases for all splits", "anchors": ["hash/ripemd/shared.go: Write, Sum, Reset"]}
{"id": "C54", "title": "RIPEMD digests are the published functions", "statement": "The digest after writing m equals RIPEMD-128/160/256/320 of m as published (padding, message schedule, round constants, rotations, boolean functions, both lines and chaining).", "quantifier": "every message shorter than 2^61 bytes (and, with the bit length taken mod 2^64, every message)", "why_tests_cant": "infinitely many messages", "anchors": ["hash/ripemd/shared.go", "hash/ripemd/ripe128.go", "hash/ripemd/ripe160.go", "hash/ripemd/ripe256.go", "hash/ripemd/ripe320.go"]}
{"id": "C55", "title": "RIPEMD tables are the published ones", "statement": "The message-word order, rotation amounts and added constants equal those derived from the design document: powers of the permutation rho and of pi(i)=9i+5 mod 16, the shift table per word, and the integer parts of 2^30 times square and cube roots of 2,3,5,7.", "quantifier": "all 80 steps and all constants", "why_tests_cant": "a table error may only show for particular data", "anchors": ["hash/ripemd/shared.go: r, rr, s, ss, k, kk, kk128"]}
{"id": "C56", "title": "RIPEMD Sum leaves the hash usable", "statement": "Sum(in) returns in followed by Size() bytes, and does not change the outcome of any later Write/Sum/Reset.", "quantifier": "every reachable state", "why_tests_cant": "all histories", "anchors": ["hash/ripemd/shared.go: Sum, Size"]}
{"id": "C57", "title": "Whirlpool digest depends only on the concatenation of the writes", "statement": "After any history of Write, Sum and Reset, Sum(nil) equals the digest a fresh hash gives after one Write of everything written since the last Reset; Write returns (len(p),nil); no call panics.", "quantifier": "every history, every split, every data", "why_tests_cant": "block boundary and padding cases for all splits", "anchors": ["hash/whirlpool/whirlpool.go: Write, Sum, Reset"]}
{"id": "C58", "title": "Whirlpool digest is the published function", "statement": "The digest after writing m equals Whirlpool(m): padding with a 256-bit big-endian bit count, Miyaguchi-Preneel over the 10-round cipher of SubBytes, ShiftColumns, MixRows, AddRoundKey.", "quantifier": "every message shorter than 2^64 bytes, whatever the hash did before; for longer ones the count is taken modulo 2^64", "why_tests_cant": "infinitely many messages", "anchors": ["hash/whirlpool/whirlpool.go", "hash/whirlpool/whirlpool_tables.go"]}
{"id": "C59", "title": "Whirlpool tables are the generated ones and match the design", "statement": "The committed tables equal what make_tables.go generates; the S-box equals the composition of the published mini-boxes; table t, entry x holds the products of S(x) with row t of the circulant matrix cir(1,1,4,1,8,5,2,9) over GF(2^8) mod x^8+x^4+x^3+x^2+1.", "quantifier": "all 2048 table entries, 10 round constants", "why_tests_cant": "hash tests touch entries at random", "anchors": ["hash/whirlpool/make_tables.go", "hash/whirlpool/whirlpool_tables.go"]}
{"id": "C60", "title": "Whirlpool Sum leaves the hash usable", "statement": "Sum(in) returns in followed by 64 bytes, and does not change the outcome of any later Write/Sum/Reset.", "quantifier": "every reachable state", "why_tests_cant": "all histories", "anchors": ["hash/whirlpool/whirlpool.go: Sum"]}
{"id": "C61", "title": "StringMatch reports exactly the differing strings and never panics", "statement": "test.StringMatch reports an error if and only if the strings differ as bytes; it never panics, whatever the strings; one extra error is reported when lengths differ.", "quantifier": "every pair of byte strings, valid UTF-8 or not", "why_tests_cant": "mixes rune and byte indices; needs all strings", "anchors": ["test/StringMatch.go"]}
{"id": "C62", "title": "Marked-up text keeps the text", "statement": "In the failure report the rendered line, with the two style markers and the blank fillers removed, is exactly the original string, and everything before the first marker is a common prefix of both strings when the strings are ASCII.", "quantifier": "every pair of strings", "why_tests_cant": "all strings", "anchors": ["test/StringMatch.go: renderText, findFirstMismatch, findLastMismatch"]}
{"id": "C63", "title": "Abbr bounds its output", "statement": "test.Abbr returns strings of at most 20 bytes unchanged and longer ones as their first 19 bytes followed by an ellipsis.", "quantifier": "every string", "why_tests_cant": "all strings", "anchors": ["test/Abbr.go"]}
{"id": "C64", "title": "Accumulating into the second operand", "statement": "Add(x, a, x) (destination aliased with the second operand) leaves A+X in x, as the in-place form with the first operand does.", "quantifier": "all memories, all widths, both byte orders", "why_tests_cant": "aliasing is a property of addresses which value-based tests ignore", "anchors": ["bytes/AddLE.go", "bytes/AddBE.go", "bytes/pad.go"]}
{"id": "C65", "title": "Style markers stand between characters", "statement": "In the failure report of StringMatch the two style markers are put at character boundaries, so valid UTF-8 strings give valid UTF-8 lines.", "quantifier": "every pair of strings", "why_tests_cant": "all strings; the tests are ASCII", "anchors": ["test/StringMatch.go: renderText, findFirstMismatch, findLastMismatch"]}
{"id": "C66", "title": "The marker line marks the mismatches and nothing else", "statement": "The marker line has one mark per character of the longer string: '-' (or the control character itself) below the common start, '^' below the first and the last differing character, blanks between, '-' below the common end, and nothing more.", "quantifier": "every pair of different strings", "why_tests_cant": "all strings", "anchors": ["test/StringMatch.go: findFirstMismatch, findLastMismatch"]}
{"id": "C67", "title": "HashTest passes exactly for the right digest", "statement": "test.HashTest on a RIPEMD or Whirlpool hash, whatever was written to it before, reports nothing if and only if expectHex is the upper-case hex text of the digest of everything written including in; otherwise it reports what StringMatchTitle does under the title Hash(in), in shortened as Abbr does; it never panics.", "quantifier": "every hash variant, every history, every input, every expected text", "why_tests_cant": "all histories and texts", "anchors": ["test/HashCompare.go: HashTest", "encoding/hex", "hash/ripemd", "hash/whirlpool"]}
{"id": "C68", "title": "HashHexTest rejects malformed input", "statement": "test.HashHexTest reports nothing if and only if inHex is well-formed hex and expectHex is the upper-case hex text of the digest of the bytes it encodes (after what was written before); otherwise it reports under the title HashHex(inHex), shortened.", "quantifier": "every hash variant, every history, every input", "why_tests_cant": "all texts", "anchors": ["test/HashCompare.go: HashHexTest", "encoding/hex/hex.go: ToBytesFast"]}
{"id": "C69", "title": "The generated source declares the tables in use", "statement": "The text that make_tables.go writes is Go source whose declarations are exactly package whirlpool, rounds, rc and ct with the values the package is built with; for every name and every list of uint64, genVar writes a declaration whose value is that list.", "quantifier": "every identifier, every list of uint64 of any length", "why_tests_cant": "the generator is run by hand and its output never compared; layout depends on the index of each element", "anchors": ["hash/whirlpool/make_tables.go: main, genVar", "hash/whirlpool/whirlpool_tables.go"]}
{"id": "C70", "title": "genConst writes the little-endian bytes as a string constant", "statement": "For every name and every list of uint64, genConst writes a Go string constant declaration whose value is the concatenation of the little-endian bytes of the elements.", "quantifier": "every identifier, every list of uint64", "why_tests_cant": "never called; layout depends on the index", "anchors": ["hash/whirlpool/make_tables.go: genConst, writeU64LE"]}
{"id": "C71", "title": "Addition under every overlap", "statement": "However sum, a and b overlap, every Add function whose destination has at least n bytes returns no error and does not panic; it writes nothing but sum[:n] (big endian: sum[:max(n,min(len sum,len a))]); what it leaves there, with the carry, is A+B, where A is a as it was at the call (little endian: the destination itself if a starts at the same address; big endian: with the bytes that the zero padding of sum has just overwritten taken as zero) and each byte of B is the byte of b as it stands when its group of four bytes is reached.", "quantifier": "all memories, all three slices at any addresses with any lengths, all widths, both byte orders", "why_tests_cant": "overlap is a property of addresses which value-based tests ignore", "anchors": ["bytes/AddLE.go", "bytes/AddBE.go", "bytes/pad.go"]}
{"id": "C72", "title": "Little-endian addition of any width", "statement": "addAnyLE, which the 64 to 512 bit functions share, adds the first byteSize bytes of a and b as little-endian integers for every byteSize, multiple of four or not: no error, no panic, carry 0 or 1, nothing but sum[:byteSize] written.", "quantifier": "every width, all memories, b not overlapping sum[:byteSize]", "why_tests_cant": "only four widths are reachable through the exported functions, so the 16 and 8 bit tail is never run by the tests", "anchors": ["bytes/AddLE.go: addAnyLE", "bytes/Add.go: addEq8"]}
{"id": "C73", "title": "Big-endian addition of any width", "statement": "addAnyBE adds the first byteSize bytes of a and b as big-endian integers for every byteSize, multiple of four or not.", "quantifier": "every width, all memories, slices not overlapping", "why_tests_cant": "only four widths are reachable through the exported functions, so the 16 and 8 bit tail is never run by the tests", "anchors": ["bytes/AddBE.go: addAnyBE", "bytes/Add.go: addEq8"]}
{"id": "C74", "title": "The one-word adders keep their contract", "statement": "addEq8, addEq16LE/BE and addEq32LE/BE add the word b (shorter: padded, longer: its first bytes) and the lowest bit of carryBit to the word sum for every carry byte and every overlap of the two slices, write only that word, and return a carry of 0 or 1; they panic exactly when sum is too short.", "quantifier": "all memories, all slices, all 256 carry bytes", "why_tests_cant": "tests try a few carries and never overlapping slices", "anchors": ["bytes/Add.go: addEq8", "bytes/AddLE.go: addEq16LE, addEq32LE", "bytes/AddBE.go: addEq16BE, addEq32BE"]}
{"id": "C75", "title": "Padding writes exactly n bytes", "statement": "padLE(dst,src,n) leaves the first n bytes of src followed by zeros in dst[:n], padBE zeros followed by them, for every n and also when the slices overlap (as long as the zeros do not hit src), and change nothing else; a dst shorter than n gives an error and no change.", "quantifier": "every n, all memories, all slices", "why_tests_cant": "tests use separate slices of exactly n bytes", "anchors": ["bytes/pad.go"]}
{"id": "C76", "title": "First and last address of a CIDR built by hand", "statement": "For an IPv4 CIDR whose address has host bits or is in 16-byte form (as net.ParseIP returns it), FirstIpv4 and LastIpv4 still give the first and last address the CIDR contains.", "quantifier": "every IPNet with an IPv4 address in either form and a 4-byte prefix mask", "why_tests_cant": "tests only use what ParseCIDR returns", "anchors": ["net/Cidr.go: FirstIpv4, LastIpv4"]}
{"id": "C77", "title": "Only nil or too short arguments panic", "statement": "Ipv4ToUint, AddIp and AddCidr return for every byte slice as address and mask, AddRange never panics; AddCidr, CidrEqual, FirstIpv4 and LastIpv4 panic for a nil CIDR; otherwise only LastIpv4 can panic, exactly when address or mask has fewer than four bytes.", "quantifier": "every address, mask, CIDR pointer and tree", "why_tests_cant": "all malformed values", "anchors": ["net/Ipv4.go", "net/Cidr.go", "net/IpTree.go"]}
{"id": "C78", "title": "Merges with effects follow the reference, also after recovered panics", "statement": "When merge keeps state and may panic, and the caller recovers from panics and goes on, then after any history the calls that returned, the state left by merge (so the order, the arguments and the results of all merge calls) and the listed CIDRs with their values are those of the reference block set, in which a panic undoes the insertion it happens in.  With a merge without effects this is the reference of C45.", "quantifier": "every merge function on any state, with panics anywhere; every history of calls with IPv4 arguments, ranges not ending at 255.255.255.255", "why_tests_cant": "all histories and all places where merge may panic", "anchors": ["net/IpTree.go: add, AddIp, AddRange, AddCidr, ListCidr"]}
{"id": "C79", "title": "A panicking merge leaves the tree as it was", "statement": "If merge panics, the interrupted call has not changed the tree.  With a nil merge, AddCidr panics exactly when the block is not 0.0.0.0/0, is not covered yet and the other half of its parent is fully covered.", "quantifier": "every merge function, every reachable tree, every call", "why_tests_cant": "all reachable trees and all panics", "anchors": ["net/IpTree.go: add, AddIp, AddRange, AddCidr"]}
{"id": "C80", "title": "merge is called at most once per added block", "statement": "In a history of calls that all return, the number of merge calls plus the number of CIDRs listed at the end is at most the number of blocks added; one AddCidr of a block of prefix length p calls merge at most p times.", "quantifier": "every merge function, every history", "why_tests_cant": "unbounded histories", "anchors": ["net/IpTree.go: add"]}
{"id": "C81", "title": "Addresses added from inside merge are kept", "statement": "A merge function may itself add addresses to the tree; they are in the tree when the outer call has returned.", "quantifier": "every merge function, also one that changes the tree, every reachable tree and every call", "why_tests_cant": "all reachable trees and callbacks", "anchors": ["net/IpTree.go: AddIp, AddRange, AddCidr"]}
{"id": "C82", "title": "A call adds at most one CIDR, a range at most 62", "statement": "AddIp and AddCidr lengthen the list of CIDRs by at most one and AddRange by at most 62, which 0.0.0.1 - 255.255.255.254 reaches.", "quantifier": "every reachable tree; every range not ending at 255.255.255.255", "why_tests_cant": "2^63 ranges on all trees", "anchors": ["net/IpTree.go: AddIp, AddRange, AddCidr, ListCidr"]}
{"id": "C83", "title": "StringMatch compares code points", "statement": "Where StringMatch splits a string it takes one piece per Unicode code point of valid UTF-8 and one per byte that starts no well-formed encoding; so for valid strings the report aligns code points and its marker line has one mark per code point.", "quantifier": "every string, valid UTF-8 or not; every pair of valid strings; both versions of strings.Split", "why_tests_cant": "all strings; the tests are ASCII", "anchors": ["test/StringMatch.go: StringMatchTitle"]}
{"id": "C84", "title": "Abbr counts characters and gives valid UTF-8", "statement": "Abbr shortens a string only if it has more than 20 characters, and the result of a valid string is valid UTF-8.", "quantifier": "every valid UTF-8 string", "why_tests_cant": "all strings", "anchors": ["test/Abbr.go"]}
{"id": "C85", "title": "The hashes keep io.Writer's and hash.Hash's promises about memory", "statement": "In any program that uses any number of hash and checksum objects with its own, arbitrarily overlapping slices: Write takes all of p, changes no memory of the program and keeps no reference to p (later stores do not change the digest); Sum appends the digest of the bytes written since the last Reset, in place exactly when the capacity suffices and in new memory otherwise, changes no other byte the program can reach and does not change the hash; a new object or Reset changes no memory; objects do not influence each other.", "quantifier": "every program over the ten hashes: every sequence of New, Write, Sum, Reset, make and stores; every slice with any overlap and capacity; every growth policy of append; Fletcher-16 writes of the lengths it takes (C24), less than 2^64 bytes for Whirlpool", "why_tests_cant": "all interleavings, overlaps and capacities; tests use fresh slices and one object", "anchors": ["hash/ripemd/shared.go", "hash/whirlpool/whirlpool.go", "checksum/bcc/bcc.go", "checksum/lrc/lrc.go", "checksum/fletcher"]}
{"id": "C86", "title": "A collision of a block hash is a collision of its compression function", "statement": "If two histories of calls wrote different messages and their Sums agree, then among the compressions made for the two messages there are two with different inputs and the same result: padding and chaining add no collisions of their own.", "quantifier": "every RIPEMD variant and Whirlpool; all pairs of call histories; messages below 2^61 (RIPEMD) and 2^64 (Whirlpool) bytes", "why_tests_cant": "all pairs of messages", "anchors": ["hash/ripemd/shared.go: Write, Sum", "hash/whirlpool/whirlpool.go: Write, Sum"]}
{"id": "C87", "title": "Package net returns memory of its own and keeps none of its caller's", "statement": "In any program that uses the address, mask and CIDR functions and any number of trees with its own, arbitrarily overlapping slices: no call changes memory of the program; every slice that is returned, and every address and mask in a list of CIDRs, is new memory that nothing else reaches; answers depend on the bytes of the moment of the call, and a tree stands for the bytes its calls were given then, whatever is stored into arguments or into lists later.", "quantifier": "every program: every sequence of make, stores, Ipv4ToUint, Ipv4FromUint, MaskFromByte, MaskToByte, CidrEqual, FirstIpv4, LastIpv4, New, AddIp, AddRange, AddCidr, ListCidr with IPv4 arguments (ranges not ending at 255.255.255.255); every slice with any overlap; every value type and merge function", "why_tests_cant": "all interleavings and overlaps; tests never write to a slice after handing it over", "anchors": ["net/Ipv4.go", "net/Mask.go", "net/Cidr.go", "net/IpTree.go"]}
{"id": "C88", "title": "Burst errors are detected", "statement": "If all bits of a message outside a window of 8 bits arrive unchanged (bytes sent low bit first or high bit first), bcc and lrc differ from those of the message sent; Fletcher-16, -32 and -64 do for windows of 7, 15 and 31 bits, and up to 9, 17 and 33 bits miss only an aligned word of zeros turned into ones or back.", "quantifier": "every message (Fletcher-16: at most 5802 bytes), every window position, every error pattern, both bit orders", "why_tests_cant": "all messages and error patterns; tests check a few fixed sums", "anchors": ["checksum/bcc/bcc.go", "checksum/lrc/lrc.go", "checksum/fletcher"]}
{"id": "C89", "title": "Fletcher: exactly which changes of two words are missed", "statement": "If two words (bytes, 16-bit, 32-bit words) at distance d are changed from x,y to x',y', the checksum is the same exactly when x+y = x'+y' and d*x = d*x' modulo 2^w-1. So if d has no common factor with 2^w-1, only changes of 0 to 2^w-1 or back are missed.", "quantifier": "every message, every pair of positions, all word values; Fletcher-16: at most 5802 bytes", "why_tests_cant": "all messages, positions and values", "anchors": ["checksum/fletcher"]}
{"id": "C90", "title": "Luhn: exactly which twin errors and swaps of distant digits are detected", "statement": "Replacing a digit pair aa by bb is detected except 22/55, 33/66 and 44/77; swapping two digits an odd distance apart is detected except 0 and 9; swapping digits an even distance apart never is.", "quantifier": "every uint64, every position", "why_tests_cant": "all 2^64 numbers", "anchors": ["checksum/luhn/luhn.go: Checksum"]}
{"id": "C91", "title": "Hex keeps order, prefixes and pieces", "statement": "Hex texts compare like the byte strings they stand for, and one starts with another exactly when the bytes do. Encoding or decoding piece by piece (pieces of even length) and joining is encoding or decoding the whole, with an error at its place in the whole.", "quantifier": "all pairs of byte strings and of texts, both builds", "why_tests_cant": "all pairs of strings", "anchors": ["encoding/hex/hex.go: FromBytes, ToBytes"]}
{"id": "C92", "title": "Adding many numbers to one accumulator loses nothing", "statement": "After Add(x,x,b) for every b of a list, the value of x plus 256^n times the sum of the carries is the old value of x plus all the numbers; only the first n bytes of x have changed.", "quantifier": "every Add function of fixed byte order, every list of slices, which may overlap each other but not x (big endian: at most n bytes long)", "why_tests_cant": "unbounded lists", "anchors": ["bytes/AddLE.go", "bytes/AddBE.go"]}
{"id": "C93", "title": "The hashes can be used by many goroutines at once", "statement": "In any program that makes hashes and slices, then starts any number of goroutines which use hashes of their own, read what was made before and call Sum of the hashes made before: in every interleaving of memory accesses there is no data race and no panic, no deadlock and no endless execution, and each goroutine gets exactly the replies and bytes it would have got alone.", "quantifier": "every program over the ten hashes: every first part, any number of goroutines, every sequence of New, Write, Sum, Reset, make, stores and loads in each, each step depending on earlier replies; every interleaving; Fletcher-16 and Whirlpool lengths as in C85", "why_tests_cant": "all interleavings; tests use one goroutine, and a race shows only under unlucky timing", "anchors": ["hash/ripemd/shared.go", "hash/whirlpool/whirlpool.go", "checksum/bcc/bcc.go", "checksum/lrc/lrc.go", "checksum/fletcher"]}
{"id": "C94", "title": "The block hashes give the standard HMAC through crypto/hmac", "statement": "A program that passes New128, New160, New256, New320 or whirlpool.New to Go's crypto/hmac gets, from every Sum, the RFC 2104 MAC of the bytes written since the last Reset under the key as it was when the MAC was made, whatever is done to the key slice or to written buffers afterwards, appended to its argument in place exactly when there is room; no call panics, changes other memory the program can see, or disturbs other MACs.", "quantifier": "every program over any number of MACs of the five block hashes: all keys, texts, chunkings, slices with any spare capacity and aliasing, all interleavings of New, Write, Sum, Reset, make and stores; Whirlpool texts below 2^64 - 64 bytes", "why_tests_cant": "all call sequences and memory layouts; the module's tests never use the hashes through crypto/hmac, which reuses one slice as input and output of two objects", "anchors": ["hash/ripemd/shared.go", "hash/ripemd/ripe128.go", "hash/whirlpool/whirlpool.go"]}
{"id": "C95", "title": "Goroutines can use package bytes on parts of one buffer", "statement": "Goroutines that use the functions of package bytes on slices of one memory, where the bytes one may write (for additions the first bytes of sum, as many as the width has; in big-endian order as many as a has, if more) are used by no other: in every interleaving of the single byte accesses there is no data race, no deadlock and no endless execution, and each goroutine gets the results and leaves the bytes it would alone. So XorEq and Zero of a long slice can be cut into parts in any way and done by one goroutine per part with the result of one call.", "quantifier": "any number of goroutines, each any program of Zero, XorEq, all Add functions, loads and stores, each step depending on earlier results; all slices and overlaps within a goroutine; every interleaving; every cut into parts", "why_tests_cant": "all interleavings; tests use one goroutine, and a race shows only under unlucky timing", "anchors": ["bytes/Zero.go", "bytes/Xor.go", "bytes/pad.go", "bytes/Add.go", "bytes/AddLE.go", "bytes/AddBE.go"]}
{"id": "C96", "title": "Checksums of joined and changed messages from the old values", "statement": "The checksum of two messages one after the other is a function of their two checksums and the number of words of the second (BCC: xor; LRC: sum modulo 256; Fletcher: low halves added, high halves added with k times the first low half, modulo M). Replacing one word anywhere, or moving a window of fixed length on by one word, changes the checksum as the formula for the old and new word says, so it need not be computed again.", "quantifier": "all messages, words and positions; joining for all sequences of writes (LRC: single writes), Fletcher-16 with writes of at most 5802 bytes", "why_tests_cant": "all pairs of messages of any length; tests compare a few fixed strings", "anchors": ["checksum/bcc/bcc.go", "checksum/lrc/lrc.go", "checksum/fletcher/fletcher16.go", "checksum/fletcher/fletcher32.go", "checksum/fletcher/fletcher64.go"]}
{"id": "C97", "title": "Check words can be appended that make the checksum zero", "statement": "For every message there are two words, computed from its Fletcher checksum, that make the checksum of message and words zero, and only words equal to them modulo M (255, 65535, 4294967295) do. For BCC and LRC the checksum itself is the one byte that does.", "quantifier": "all messages (Fletcher-16: at most 5800 bytes; Fletcher-32/64: whole words; LRC: one write), all candidate words", "why_tests_cant": "all messages and all pairs of words", "anchors": ["checksum/bcc/bcc.go", "checksum/lrc/lrc.go", "checksum/fletcher/fletcher16.go", "checksum/fletcher/fletcher32.go", "checksum/fletcher/fletcher64.go"]}
{"id": "C98", "title": "A digest and a length determine the digests of longer messages", "statement": "Once Sum has given d for n bytes, the digest of those bytes followed by their padding and any text x is a function of n, d and x alone (so a secret put before a message does not protect it, and HMAC is needed); and two messages of one length with equal digests still have equal digests after the padding and any text.", "quantifier": "RIPEMD-128, -160, -256, -320 and Whirlpool, all histories of calls, all texts; Whirlpool below 2^64 bytes", "why_tests_cant": "all messages; no test relates digests of different messages", "anchors": ["hash/ripemd/shared.go", "hash/ripemd/ripe128.go", "hash/ripemd/ripe160.go", "hash/ripemd/ripe256.go", "hash/ripemd/ripe320.go", "hash/whirlpool/whirlpool.go"]}
{"id": "C99", "title": "Goroutines can use package net at once, and a copied tree is a snapshot", "statement": "Goroutines that use package net at once, sharing slices and trees made before they were started and only reading those (ListCidr and copying a Tree struct count as reading): in every interleaving of the single memory accesses there is no data race, no panic, no deadlock and no endless execution, and each gets the replies and bytes it would get alone. A copy of a Tree is from then on independent: a tree lists what the calls on it, and on what it was copied from before, amount to, whatever is added to the other copies. Adding to one tree from two goroutines, or adding while another lists, is a race.", "quantifier": "any number of goroutines, each any program of all functions of package net, loads, stores and tree copies, each step depending on earlier replies; all merge functions without effects; every interleaving; ranges that end before 255.255.255.255", "why_tests_cant": "all interleavings and all histories of copies; a race or a shared node shows in tests only under unlucky timing", "anchors": ["net/IpTree.go", "net/Ipv4.go", "net/Mask.go", "net/Cidr.go"]}
{"id": "C100", "title": "No operation costs more than it should", "statement": "Counting the reads and writes of memory (allocating n cells counts n + 1): writing n bytes to a hash takes at most 4n + 240 accesses and Sum at most 1000, besides moving the slice it appends to, so a digest is linear in the message however it is cut up; Zero takes one access per byte, XorEq three, additions five per byte of the width (big endian: and two per byte of a); adding an address or CIDR to a tree takes at most 875 accesses however many the tree holds, a range at most 62 times that, and ListCidr at most 275 per entry listed.", "quantifier": "any number of goroutines, each any program of the operations; every interleaving (hashes and bytes: with races or without, any memory; net: programs as in C99)", "why_tests_cant": "all inputs, tree contents and interleavings; a benchmark sees single cases, and worst cases such as deep trees or emptied forks need not occur in it", "anchors": ["hash/ripemd/shared.go", "hash/whirlpool/whirlpool.go", "checksum", "bytes/Zero.go", "bytes/Xor.go", "bytes/pad.go", "bytes/AddLE.go", "bytes/AddBE.go", "net/IpTree.go", "net/Ipv4.go", "net/Mask.go", "net/Cidr.go"]}
{"id": "C101", "title": "Which memory is accessed does not depend on the data", "statement": "Two programs that make the same calls with slices of the same places and lengths, but with other bytes in them, access the same memory in the same order: the hashes and checksums (fields of the objects, the slices of the caller, allocations) and all functions of package bytes, whose additions do not stop when there is no carry and whose XorEq and Zero skip no byte. So neither the pattern nor the number of accesses tells anything about the text or numbers besides their lengths. Lookups in the constant tables of Whirlpool are not counted and do depend on the text.", "quantifier": "all pairs of programs that differ in the bytes stored, each step depending on earlier replies except bytes loaded and carries; hashes: any number of goroutines as in C93 and every interleaving; bytes: any goroutines with races or without, any memory", "why_tests_cant": "it relates all pairs of executions; a test sees single ones and does not see accesses", "anchors": ["hash/ripemd/shared.go", "hash/whirlpool/whirlpool.go", "checksum", "bytes/Zero.go", "bytes/Xor.go", "bytes/pad.go", "bytes/AddLE.go", "bytes/AddBE.go"]}
{"id": "C102", "title": "The zero value of Tree is an empty tree", "statement": "A Tree that was declared and not made with New (var t net.Tree, new(net.Tree), a field of a struct) is an empty tree: it can be listed and added to, as is usual for Go types with exported names and unexported fields.", "quantifier": "all histories of AddIp, AddRange and AddCidr on such a tree, panics recovered from, followed by ListCidr", "why_tests_cant": "tests make their trees with New; which calls fail on a tree without merge function depends on the whole history", "anchors": ["net/IpTree.go"]}
{"id": "C103", "title": "Goroutines can use hashes, hex and codegen at the same time", "statement": "Goroutines that use package hex, package codegen, hashes and slices of bytes in any mixture, sharing what was made before they were started and only reading it: in every interleaving of the single memory accesses there is no data race, no panic, no deadlock and no endless execution, and each goroutine gets the texts, slices, errors and digests it would get alone. No call changes a slice it is given; every string is a copy and every slice returned by ToBytes or ToBytesFast is new and belongs to the caller alone, who may write to it while others decode the same text.", "quantifier": "any number of goroutines, each any program of all functions of hex and codegen, the ten hashes, make, loads and stores, each step depending on earlier answers; both builds of hex; every interleaving; codegen calls of whole sections, hashes as in C93", "why_tests_cant": "all interleavings and mixtures of calls; tests use one goroutine, and a shared buffer or a race shows only under unlucky timing", "anchors": ["encoding/hex/hex.go", "encoding/hex/hex_256b.go", "encoding/hex/hex_tiny.go", "codegen/BytesToString.go", "codegen/BytesToHexSep.go"]}
{"id": "C104", "title": "Additions without common addresses can be made in any order, values included", "statement": "Two additions to a tree that have no address in common can be exchanged, wherever they stand in the history: the tree is the same afterwards, values included, whatever the merge function is (it need not be commutative or associative). So a set of additions that do not overlap can be made in any order, and in any history only the order of overlapping additions matters.", "quantifier": "all merge functions without effects, all histories of AddIp, AddRange and AddCidr with IPv4 arguments (ranges ending before 255.255.255.255), all exchanges and permutations", "why_tests_cant": "all orders of all histories; tests add a few addresses in one order", "anchors": ["net/IpTree.go"]}
{"id": "C105", "title": "A listing says all there is to say about a tree", "statement": "Trees with the same merge and equal listings behave the same from then on. The entries of a listing, added to a new tree in any order, restore the tree that was listed. Adding the listing of one tree to another gives the addresses of both; and if work is divided into parts without common addresses, each done on a tree of its own, adding the listings of the parts to one tree gives what all calls on one tree would give, values included. A tree has at most 64 nodes per listed entry and one more, however it came about.", "quantifier": "all merge functions without effects, all histories as in C104, any number of parts, all later calls", "why_tests_cant": "all pairs of histories and all divisions of work; tests compare single listings", "anchors": ["net/IpTree.go"]}
{"id": "C106", "title": "Calls of hex and codegen cost no more than they should", "statement": "Counting the reads and writes of memory (allocating n cells counts n + 1): FromBytes of n bytes takes at most 8n + 1 accesses, ToBytes and ToBytesFast of n characters at most n + 1, BytesToString of n bytes at most 26n + 9, BytesToStringSep and BytesToHexSep at most 35n + 5 for every section length. So all are linear, also when they panic or find an error, and no mixture of calls with hashes costs more than the sum.", "quantifier": "any number of goroutines, each any program of all functions of hex and codegen, hashes, make, loads and stores, each step depending on earlier answers; both builds; every interleaving, with races or without; any memory; arguments of codegen below 2^58 bytes", "why_tests_cant": "all inputs, programs and interleavings; a benchmark sees single cases", "anchors": ["encoding/hex/hex.go", "codegen/BytesToString.go", "codegen/BytesToHexSep.go"]}
{"id": "C107", "title": "Which memory hex and codegen access does not depend on the data", "statement": "A call of FromBytes, BytesToString, BytesToStringSep or BytesToHexSep reads and writes the same memory in the same order whatever the bytes are, and a call of ToBytes or ToBytesFast depends only on where the text has hex digits, not on which. Programs that mix such calls with hashes and differ in the data only make the same accesses in the same order. (Constant lookup tables do not count as memory.)", "quantifier": "single calls: any memory, panics included; programs: all pairs that keep the rules of C103 and differ in the bytes stored and the digits of texts, each step depending on earlier answers; any number of goroutines; both builds; every interleaving", "why_tests_cant": "it relates all pairs of executions; a test sees one execution at a time, and accesses are not observable in it", "anchors": ["encoding/hex/hex.go", "encoding/hex/hex_256b.go", "encoding/hex/hex_tiny.go", "codegen/BytesToString.go", "codegen/BytesToHexSep.go"]}
{"id": "C108", "title": "Listed values are merged in the order of the addresses, each added block once", "statement": "The listing is made of the blocks that stand: an added block that brings no new address is ignored, any other takes the place of the blocks inside it. The blocks of an entry fill it from end to end, and its value is theirs merged half by half; if merge is associative, merged in the order of the addresses. If no two calls overlap all blocks stand, so whatever merge adds up has the same total in the listing as in what was added; and with overlaps or without, if every block is added with its number of addresses and merge is addition, every entry has its number of addresses.", "quantifier": "all merge functions without effects (associative or additive where said), all histories of AddIp, AddRange and AddCidr with IPv4 arguments (ranges ending before 255.255.255.255)", "why_tests_cant": "all histories and all merges; tests look at a few listings, where a value merged twice or in the wrong order need not show", "anchors": ["net/IpTree.go: add, AddIp, AddRange, AddCidr, ListCidr"]}
{"id": "C109", "title": "Hashes can be shared under a lock", "statement": "Goroutines share hashes and slices made before they were started and one sync.RWMutex (or sync.Mutex). They change what is shared only between Lock and Unlock, look at it (Sum, reading bytes) only there or between RLock and RUnlock, and use things of their own at any time. In every interleaving of the single memory accesses there is no data race, no panic and no endless execution; a goroutine is at its end, or can go on, or waits for one that holds the lock and can go on; and everything looks as if each stretch of calls (with the lock or between two of them) had happened at once, in an order that keeps stretches that followed one another: replies, slices, and the digests the first goroutine finds when it goes on. So a user needs to think only about whole stretches; any number of goroutines that write to one shared BCC leave the exclusive or of all bytes, and others that Sum it under RLock meanwhile see that of some of the texts.", "quantifier": "every first part, any number of goroutines, every program of stretches over the ten hashes, make, loads and stores, each step depending on earlier replies; every interleaving; rules kept in all executions in which stretches happen at once; Fletcher-16 and Whirlpool lengths as in C85", "why_tests_cant": "all interleavings of all programs; tests use one goroutine, and state kept outside the object or a write by Sum shows only under unlucky timing", "anchors": ["hash/ripemd/shared.go", "hash/whirlpool/whirlpool.go", "checksum/bcc/bcc.go", "checksum/lrc/lrc.go", "checksum/fletcher"]}
{"id": "C110", "title": "Trees can be shared under a lock, and copies taken under it be used without it", "statement": "Goroutines share trees and slices made before they were started and one sync.RWMutex (or sync.Mutex). They change what is shared only between Lock and Unlock, look at it (Copy, ListCidr, addresses and masks as arguments) only there or between RLock and RUnlock, and use things of their own at any time, among them copies of a shared tree taken while holding the lock. In every interleaving of the single memory accesses there is no data race, no panic and no endless execution; a goroutine is at its end, or can go on, or waits for one that holds the lock and can go on; and everything looks as if each stretch of calls had happened at once, in an order that keeps stretches that followed one another. A copy stays what the tree was when it was taken, whatever is added to the tree or to other copies meanwhile. So when any number of goroutines each add an address to one tree under Lock, copy it under RLock and list the copy later without the lock, each listing covers its own address and only added ones, and in the end the tree covers exactly the added ones.", "quantifier": "every first part, any number of goroutines, every program of stretches over the functions of package net, make, loads and stores, each step depending on earlier replies; every merge function on numbers; every interleaving; rules kept in all executions in which stretches happen at once; ranges not ending at 255.255.255.255", "why_tests_cant": "all interleavings of all programs; a copied Tree shares its nodes with the original, so an addition that changed a node in place would be seen by a reader without the lock, only under unlucky timing", "anchors": ["net/IpTree.go", "net/Cidr.go", "net/Ipv4.go", "net/Mask.go"]}
{"id": "C111", "title": "How many messages share a checksum", "statement": "The checksums spread messages evenly. Of all messages of a length (one byte or more) exactly one in 256 has a given BCC, and the same for LRC; of all numbers of up to 19 digits written with leading zeros exactly one in ten has a given Luhn digit. Of all messages of a length of at least two words, a value of Fletcher-16, -32 or -64 that has neither sum all ones comes up at least once and at most four times in 2^16, 2^32 or 2^64; the values with a sum of all ones never come up. So the chance that a random message passes a check is known, and four is reached.", "quantifier": "all lengths (Fletcher-16: up to 5802 bytes written at once), all values, all messages, written at once to a new object", "why_tests_cant": "a count over all messages of a length, 256^n of them", "anchors": ["checksum/bcc/bcc.go", "checksum/lrc/lrc.go", "checksum/fletcher", "checksum/luhn/luhn.go"]}
{"id": "C112", "title": "Hashes and trees can be passed between goroutines by any means of synchronisation", "statement": "Goroutines use hashes, address trees, packages hex and codegen, bytes.Zero and XorEq and byte slices and synchronise by whatever means: channels, mutexes, wait groups, atomic variables or a mixture, which may hand over hashes, trees and slices. To be safe it is enough to look at whole calls: if, as long as every call happens at once, every call is a proper one and no two goroutines are ever about to make calls of which one changes what the other one looks at or changes (Write and Reset change their hash, Write looks at its argument, Sum looks at its hash, and changes the bytes behind its argument if the digest fits there, else looks at its argument; AddIp, AddRange and AddCidr change their tree and look at their arguments, ListCidr and a copy of the struct look at the tree, and a copy is another tree; the functions on addresses, masks and networks change nothing and look at the bytes of their arguments, as do FromBytes and the functions of codegen; Zero changes its argument, XorEq changes as many bytes of its first argument as it looks at of both), then in every interleaving of the single memory accesses there is no data race and no panic, every call can end by steps of its goroutine alone, and wherever the goroutines are they could have come there by calls that happen at once, with the same replies and the same bytes in all slices. No run of goroutines whose own programs end goes on for ever, and if none of them can move on, none is inside a call: each has ended or waits for another, as it would if calls happened at once, so the library adds no deadlock. So a hash can go from hand to hand, and any number of goroutines may Sum it at the same time: when goroutines each write one byte to a hash that they pass on, the sum is always that of the bytes in order, and when a hash is written to and then shown to any number of goroutines that all Sum it, each gets the digest; both always come to their end.", "quantifier": "any number of goroutines, every program over the ten hashes, the functions of packages net, hex (either build) and codegen, bytes.Zero and bytes.XorEq (no byte of its second argument being an earlier one of its first), trees with any merge function, make, loads and stores, each step depending on earlier replies; every kind of synchronisation that is a set of steps that look at and change one value of any type; every interleaving; Fletcher-16 and Whirlpool lengths as in C85", "why_tests_cant": "all interleavings of all programs with all means of synchronisation; tests use one goroutine, and state kept outside the object or a write by Sum shows only under unlucky timing", "anchors": ["hash/ripemd/shared.go", "hash/whirlpool/whirlpool.go", "checksum/bcc/bcc.go", "checksum/lrc/lrc.go", "checksum/fletcher", "net/IpTree.go", "encoding/hex/hex.go", "codegen/BytesToString.go", "codegen/BytesToHexSep.go"]}
{"id": "C113", "title": "A copy of a tree is a snapshot that can be listed while the tree is added to", "statement": "One goroutine keeps a tree: it adds addresses one by one and after each of them publishes a copy of the Tree struct as the newest one (as with an atomic.Value). Any number of other goroutines take the newest copy as often as they like and list it without any lock, while the keeper goes on adding and copying. In every interleaving of the single memory accesses there is no data race and no panic; every list is exactly that of the tree after some number of whole additions, never of half an addition or of some without earlier ones; no goroutine ever sees an older state after a newer one; and if anything is added at all every run comes to its end, with as many lists for each onlooker as it asked for. Publishing the tree itself instead of a copy is a race.", "quantifier": "every merge function, every list of addresses and values, any number of onlookers and looks; every interleaving", "why_tests_cant": "all interleavings of all such programs; a copied Tree shares all its nodes with the original, and whether an addition ever changes a shared node shows only under unlucky timing", "anchors": ["net/IpTree.go: Tree, add, AddIp, ListCidr", "net/Ipv4.go"]}
{"id": "C114", "title": "Messages sent between goroutines as hex text arrive unchanged", "statement": "Goroutines send messages to each other as hex text over a channel with room for some number of texts. Each sender has one buffer: it fills it with a message, calls hex.FromBytes, sends the text, and at once fills the same buffer with the next message. Readers take whichever text they come by and call hex.ToBytes or hex.ToBytesFast, in either build. In every interleaving of the single memory accesses there is no data race and no panic; no reader ever gets an error; and every slice a reader gets holds, and goes on holding, exactly the bytes of the message it was sent as, whatever the sender and the other readers do meanwhile. No message arrives twice. Every run comes to its end exactly if there is a text for each that is to be read and room in the channel for those that are not; and however they end, none is lost: if as many texts are read as were sent, every message has arrived. Handing over the buffer itself instead of the text is a race.", "quantifier": "any number of senders and readers, every list of messages, every buffer length, every channel capacity of one or more; every choice of which text a reader takes; every interleaving", "why_tests_cant": "all interleavings of all such programs; a text or a decoded slice that shared memory with the buffer, or with another call, would show only under unlucky timing", "anchors": ["encoding/hex/hex.go: FromBytes, ToBytes, ToBytesFast", "encoding/hex/hex_256b.go", "encoding/hex/hex_tiny.go"]}
{"id": "C115", "title": "A nil *Tree does not lose additions silently", "statement": "A call on a nil *Tree (declared but never made with New) either panics or had nothing to add: AddIp, AddCidr and ListCidr always panic, and AddRange returns only if the range ends before it starts, where an argument that is not an IPv4 address counts as 0.0.0.0. In particular no call that has addresses to add returns, and none goes on for ever, also not a range up to 255.255.255.255.", "quantifier": "every call, all byte strings as addresses, nil and non-nil CIDRs", "why_tests_cant": "all pairs of addresses and all byte strings; tests make their trees with New", "anchors": ["net/IpTree.go: AddIp, AddRange, AddCidr, ListCidr"]}
{"id": "C116", "title": "One key can be xored into many messages at the same time", "statement": "One goroutine makes a key and shows it to others (by a channel, say). Each of them fills a slice with a message of its own and calls bytes.XorEq(message, key) some number of times, while all the others do the same with the same key and without any lock. In every interleaving of the single memory accesses there is no data race and no panic; whoever is finished has, and keeps, its message xored with the key if it called an odd number of times and its message unchanged if it called an even number of times; bytes behind the end of a shorter key stay as they are; and the key does not change until all are finished. Then its maker wipes it out with bytes.Zero. Every run comes to its end, with everybody finished exactly once and nothing left of the key. Showing the key before it is filled, or wiping it out before all are finished, is a data race.", "quantifier": "every key, every list of messages of any lengths and numbers of calls, any number of goroutines; every interleaving", "why_tests_cant": "all interleavings of all such programs; if XorEq wrote to its second argument, for one access only and with the value put back afterwards, or kept any state of its own, it would show only under unlucky timing", "anchors": ["bytes/Xor.go: XorEq", "bytes/Zero.go: Zero"]}
