# Formal model of gnabgib/gnablib-go in Rocq (Coq 8.16.1)

## Layout

`/verif/rocq/theories/`

| directory | content |
|---|---|
| `Base/`  | Go semantics used everywhere: outcomes (value / panic / out of fuel), wrap-around, bounds-checked buffers, byte order, and the Go standard-library functions the code calls. |
| `Model/` | the model of the code, one file per Go package; each definition cites `/repo` file and lines. No proofs. |
| `Spec/`  | small, independent specifications (integers, sets of addresses, published algorithms, parsers). They never mention the model. |
| `Proofs/`| lemmas. |
| `Props/` | the property theorems (`C<nn>_...`), with non-vacuity `Example`s and `Print Assumptions`. |

Bytes and machine words are `N` (with explicit `mod 2^w` wherever Go wraps); Go `int` is `Z` where it
can be negative and `nat` where it is a length or an index. A byte slice is `list N` when
aliasing cannot matter and a window `(offset,length)` into one flat memory where it does (package
`bytes`). A panic is the value `Panic`; a loop without an obvious bound takes explicit fuel and
yields `OutOfFuel` when exhausted, which theorems exclude (or, for `AddRange` up to
255.255.255.255, prove for every fuel).

## Per property: what is modelled and how it is proved

* C01-C08 `encoding/hex`: FromBytes/ToBytes/ToBytesFast/Error with both `decode` bodies.
  Induction on the string in steps of two; decode tables by exhaustive 256-case sweep.
* C09, C10 `bytes.Zero`, `XorEq`: flat-memory model, induction on the loop.
* C11-C17, C64, C71 `bytes.Add*`: flat-memory model of padLE/padBE/addEq*/addAny*; value lemmas for
  little/big-endian numerals; loop invariant `partial sum + carry*256^k = partial A + partial B`.
  Refuted parts are given by concrete memories (C13, C14, C16, C17, C64). C71 is the exact law for
  any overlap of the three slices (`Proofs/BytesAlias.v`); it has no separation hypothesis.
* C72-C75 the unexported adders and padLE/padBE for every width and carry byte
  (`Proofs/BytesInner.v`), including the tail code no exported function reaches.
* C18 `endian`: uint16 store modelled for both layouts.
* C19-C22 `bcc`, `lrc`: state machine over call histories.
* C23-C30 `fletcher`: state machine; invariant relates accumulators to exact sums mod M with
  explicit overflow bounds; C24 refuted by panic and by overflow witnesses; the exact value of
  Fletcher-16 after any history counts the overflowed batches (`Proofs/Fletcher16Proofs.v`).
* C31-C33 `luhn`: loop on uint64; the specification is over digit lists.
* C34-C37, C76, C77 `net` Ipv4/Mask/Cidr, with Go's `net.IP.To4`, `IPMask.Size`, `IPNet.Contains` and
  `IP.Mask` modelled in `Base/GoNet.v` from the Go 1.19 standard library (trusted).
* C38-C49 `net` IpTree: binary trie. Membership semantics, normal-form invariant, minimality by
  induction on the trie, reference block-set for values, fuelled AddRange.
* C78-C82 the same with a merge function that has effects: one insertion is a chain of merge
  calls up the tree (`climb`), which is matched with the reference; `C78_pure` ties the two models
  together. A range splits into at most 62 blocks.
* C50-C52 `codegen`: bounds-checked output buffer exactly as allocated by the code; the
  specification is a small parser for the Go literal forms. The `..._text` theorems also give the exact text
  (`go_string`, `go_strings`, `go_list` of `Spec/CodegenSpec.v`).
* C53-C56 `ripemd`: context as record, Write/Sum/Reset/hash*; invariant "context represents
  message m"; compression function proved equal to a specification written from the
  RIPEMD paper (permutations, shift table, roots).
* C57-C60 `whirlpool`: as above; table lookups proved equal to the algebraic round. The table
  computation of `make_tables.go` is modelled and its result compared with the committed tables.
* C61-C63, C65, C66 `test` StringMatch, Abbr: marker and render buffers with bounds checks, for
  every segmentation of the strings into non-empty pieces; Go's two versions of
  `strings.Split(s,"")` (`Base/GoStrings.v`) are shown to be such segmentations. `aligned` (a
  longest common start, a longest common end after the first difference) is the specification.
* C83, C84 the same for UTF-8: `Spec/Utf8Spec.v` is an encoder and what the characters of any byte
  string are; the segmentation is shown to be just that, and the report to count code points.
* C67, C68 `test` HashTest, HashHexTest: on top of C02-C05, C54, C58 and C61, for hashes with
  any history of earlier calls; the report is StringMatchTitle's under the right title.
* C85 all hashes used by one program over shared memory (`Model/HashMem.v`): Write and Sum on the heap
  simulate the list models (`Proofs/HashMemProofs.v`), so C22-C30, C54 and C58 carry over; the invariant
  of a program is that object buffers are disjoint from each other and from what the program can reach.
* C86 the reduction of collisions of the five block hashes to their compression functions: walking the two
  chains of compressions back from the end; the padding is shown injective. That collisions exist at all
  (the hypotheses can be met) is by counting, `Proofs/CollisionProofs.v`.
* C87 package net over shared memory (`Model/NetMem.v`): each function reads its arguments and allocates what
  it returns; the values carry over from C34-C45; the invariant of a program is that every tree is the one
  its recorded calls build and that returned slices lie above everything allocated before.
* C88-C90 error detection: on top of the exact checksum values; a burst is a window of bit positions
  (`Spec/BurstSpec.v`), proved word by word (`Proofs/BurstProofs.v`).
* C91 on top of C01-C04, C92 by induction on the list of numbers on top of C17.
* C93 goroutines (`Model/HashAtom.v`): the hashes as sequences of single memory accesses, goroutines as their
  interleavings (`Base/Goroutine.v`). `safe` (`Proofs/GoroutineProofs.v`) says that code writes only memory of
  its goroutine and reads only that and what was there before (or what else its rights are, see C109); such code does the same in every
  interleaving. The accesses are shown to compute what the list models do (`Proofs/HashAtomProofs.v`), so
  the digests carry over from C85's lemmas; the invariant of a goroutine is in `Proofs/GoUseProofs.v`.
* C94 the block hashes inside Go's crypto/hmac (`Model/Hmac.v`): each call of the client is a sequence of calls of
  C85's contract; the invariant adds that the pads of every MAC hold the padded key and cannot be reached by
  the program. RFC 2104 is the specification (`Spec/HmacSpec.v`), the vectors of RFC 2286 are examples.
* C95 package bytes and goroutines (`Model/BytesAtom.v`): each function as single accesses; which cells it may
  read and write is a set computed from its arguments (`Spec/BytesUseSpec.v`). Code that keeps to such sets
  does the same in every interleaving (`Proofs/ShareProofs.v`); alone it is shown to be the function of
  `Model/Bytes.v` (`Proofs/BytesAtomProofs.v`), so C09-C17 carry over.
* C96, C97 computing with checksums: formulas on values (`Spec/CombineSpec.v`) on top of the exact values of C20-C28.
* C98 length extension: the digest is the chaining value, so the iteration can be resumed from it (`Spec/ExtendSpec.v`).
* C99 package net and goroutines (`Model/NetAtom.v`): nodes of trees in memory, each access a step. The invariant is
  that nodes are never written after they were linked (`frozen`), so copies of a Tree share nodes safely;
  alone the accesses build the trees of `Model/Net.v` (`Proofs/NetAtomProofs.v`), so C34-C45 carry over. The
  specification is a relation; `Proofs/NetGoUnique.v` shows it allows one outcome.
* C100 numbers of memory accesses (`Base/Cost.v`), on the models of C93, C95 and C99. Bounds that hold for whatever is
  read are by induction on the code (`pays`); those of ListCidr need the invariant of C99 and that no fork of a
  tree is empty. Among other goroutines a goroutine makes the accesses it makes alone (`takes_alone`).
* C101 data-independent accesses (`Base/Trace.v`, `Spec/TraceSpec.v`), on the models of C93 and C95: two runs in lockstep
  (`lock`; for package bytes `par`, which holds whatever is read). Of what the hashes read only the position in the
  block steers the accesses, and it is the same in both runs. Constant tables are not memory in the model.
* C102 the zero value of Tree (`Model/NetZero.v`): a nil root and a nil merge; in step with the model of C78 whose every
  merge panics (`run_zero_ok`), so its reference applies; the root is nil exactly while no address was added (`run_none`).
* C103 packages hex and codegen and goroutines (`Model/HexAtom.v`), in one program with the hashes of C93: the loops fill a
  new buffer (`filling`, `Proofs/HexAtomProofs.v`) with what the list models of C01-C08 and C50-C52 compute, whatever
  other goroutines do; a deed keeps the invariant of C93 (`Proofs/LibUseProofs.v`).
* C104 the order of additions (`Proofs/NetOrder.v`): adding to a fork adds to the half concerned, also when the fork is full,
  so two additions that do not meet commute by induction on the height; calls are lists of blocks.
* C105 `union` of two trees without common address: adding to the second commutes with it (`union_add`), so a history and
  the listing it leads to do the same to the first tree. The number of nodes is by induction on the normal form.
* C106 as C100, for the model of C103 (`Spec/LibCostSpec.v`, `Proofs/CostHex.v`); the lengths codegen computes are those of
  64-bit ints, hence the bound on its arguments.
* C107 as C101, for the model of C103 (`Spec/LibTraceSpec.v`, `Proofs/LibTrace.v`): the loops write to a new buffer, whose
  cells steer nothing; that both runs return is known from C103 (`lock_safe`), and so is the shape of the texts.
* C108 a second tree with the blocks in place of the values and concatenation as merge runs beside the first (`hung`,
  `Proofs/NetValue.v`); its leaves are the blocks that stand (`add_leaves`), where `Spec/NetValueSpec.v` says which these are
  without any joining of blocks.
* C109 hashes shared under a lock: Go's sync.RWMutex (and sync.Mutex) is modelled in `Base/Lock.v`, the lock and the workers belong to the user
  (`Model/LockAtom.v`, on the model of C93). Simulation (`Proofs/LockProofs.v`): a worker of `Spec/LockSpec.v` takes its turn
  when the stretch begins; until it ends, `safe` says that the rest of the code stays within the worker's rights and
  ends in what the turn says. Who is between Lock and Unlock has rights to read and write what is shared, who is
  between RLock and RUnlock to read it. Go lets a waiting Lock go before later RLocks; the model has these executions and more.
  TryLock, nested locking, channels and reading shared things without the lock in the same program are not modelled here (for
  hashes and trees they are in C112).
* C110 trees shared under a lock (`Model/NetLockAtom.v`, on the model of C99 and the lock of C109). A copy of a shared tree has
  nodes of its maker and of others, and is read without the lock while others add to the tree: a node is never
  written once linked, so memory is split (`Proofs/AreaProofs.v`) into what is settled for ever, the rest of the
  goroutine's own, and the roots under the lock. Simulation as for C109 (`Proofs/NetLockProofs.v`), where what is settled grows.
* C111 counting messages: whatever the rest of a message is, few beginnings give the wanted value (`spread`, by induction on the
  length), on top of the exact values of C20-C28 and C31. `Spec/CountSpec.v` says what a count is.
* C112 goroutines that synchronise in whatever way (`Base/Sync.v`, `Model/SyncAtom.v` on the hashes of C93, package net of C99, packages hex and codegen of C103 and Zero and XorEq of package bytes; the additions are not there): all they synchronise
  with is one value of any type, and a synchronising step looks at it and changes it at once, or waits. A channel, a mutex or
  a wait group is such a value; goroutines started later are ones that wait for it. `Spec/SyncSpec.v` says when calls get in
  each other's way, as they happen at once. Simulation (`Proofs/SyncProofs.v`): a call happens when it returns; while it is in
  progress its goroutine is about to make it in `Spec/SyncSpec.v`, so the hypothesis says that it has to itself what it
  changes. `Proofs/HashAreaProofs.v` has the hash functions within such areas, `Proofs/HexAreaProofs.v` packages hex and codegen, `Proofs/NetAreaNodes.v` the nodes of trees, which are settled once linked, so that a copy shares them. `Spec/RelaySpec.v` has two uses of it.
  That no run goes on for ever (`Proofs/SyncEndProofs.v`) is because every step of a goroutine goes down in its program or in the code of a call (both
  are inductive trees, so endless loops of the user's own cannot be written in this language); the relay and the publication end by
  an invariant on where each goroutine is (`Proofs/RelayEndProofs.v`).
* C113 snapshots (`Spec/SnapshotSpec.v`), a third use of C112: invariant of the runs in which calls happen at once (`Proofs/SnapshotProofs.v`): every
  copy that an onlooker has is a tree after as many additions as the keeper had made when it took it, and nobody adds to it. That all end
  is because the keeper never waits, and has shown a copy when it ends.
* C114 letters (`Spec/PostSpec.v`), a fourth use of C112: invariant of the runs in which calls happen at once
  (`Proofs/PostProofs.v`): a text is the numerals of its message as soon as it is posted, and only senders store, in their own buffers. That no message is lost or comes twice
  (`Proofs/PostEndProofs.v`) is by counting each message over what the goroutines hold, the texts under way and what has arrived; from the
  same count, who waits can go on.
* C115 a nil `*Tree` (`Model/NetNil.v`): every use of a field panics; that AddRange comes to its first use is by the loop lemmas of C42.
* C116 a shared key (`Spec/PadSpec.v`), a fifth use of C112: invariant of the runs in which calls happen at once (`Proofs/PadProofs.v`): everybody changes
  its own bytes only, and the key is shown when its maker no longer stores, and wiped out when nobody is left who uses it, by counting the finished.
  All end because the maker waits only for the others, after it has shown the key.
* C69, C70 `make_tables.go` output: the text is read back by a small Go lexer (one step per
  character, with semicolon insertion) and parser (`Spec/GoSourceSpec.v`); induction on the table.

Where the code does not have the property as a user would expect it, the claim is `partial` in
MANIFEST.json: a theorem `..._refuted` exhibits the failing case and theorems `..._partial` give
the exact behaviour.

## Which code is modelled

All functions of all non-test Go files of /repo, with these exceptions and simplifications:

* `make_tables.go`: `main` is modelled up to the text handed to `format.Source`; gofmt itself and
  the writing of the file are not. A writer is the text appended to it.
* `testing.T.Errorf` is a list of reports, in order; the text of the length report is a pair of
  numbers.
* In the models of the single hash packages `append(in, out...)` of `Sum` is `in ++ out` as a new list.
  `Model/HashMem.v` models the same code with its block buffers and the caller's slices in one heap
  (`Base/Heap.v`: make, append with capacity). The spare capacity of a moved slice is any number; memory is
  never freed; the words of an object (state, counters, checksums) are values, as no caller can reach them.
* In `Model/Net.v` byte slices are lists. `Model/NetMem.v` adds which memory is read, written and returned;
  the `*net.IPNet` struct and the slice of `CidrValue`s are values there, only their byte slices are memory.
* The `merge` function of `net.New` is a total pure function in `Model/Net.v`. `Model/NetEffects.v`
  models the same code with a merge that keeps state, panics or changes the tree it is called
  from; only a merge that never returns is left out. Trees are made by New, except in `Model/NetZero.v`
  (the zero value) and `Model/NetNil.v` (a nil pointer).
* `int` is 64 bits where overflow matters (`codegen`); slices are shorter than 2^58 bytes there.
* Goroutines are modelled for the hashes (`Model/HashAtom.v`), package bytes (`Model/BytesAtom.v`), package net
  (`Model/NetAtom.v`) and packages hex and codegen (`Model/HexAtom.v`); strings are values there. The library
  starts none itself. A panic stops its goroutine only (in Go it ends the program). A cell is a byte or a whole field; the tables of constants are never written and are values; `copy`, `*c` and the
  arguments of the compression functions are read cell by cell in ascending order; the compression functions
  compute on what was read and then assign state and bPos; each goroutine has addresses of its own for what
  it allocates. Executions are interleavings; that a program without races has no others is Go's memory model.
* `Model/Hmac.v` models hmac.go of Go 1.19's crypto/hmac, which is not part of /repo, as a client of the hashes;
  its branches for hashes with MarshalBinary (none in /repo) and for FIPS builds are left out.
* Memory exhaustion and running time are not modelled (C100 and C106 count memory accesses). Unsafe pointer use in `endian` is a two-byte store in either layout.

## Trusted base

* Coq 8.16.1's kernel (including `vm_compute`).
* The reading of the Go source in `Model/`, the Go semantics in `Base/Go.v`, `Base/Mem.v`,
  `Base/Goroutine.v`, `Base/Lock.v` and `Base/Sync.v` (interleavings, sync.RWMutex, synchronising steps), and the behaviour of the Go standard-library functions in `Base/GoNet.v`, `Base/GoStrings.v` and those
  cited in `Model/` (encoding/binary, math/bits, fmt's %d, %c and %016x).
* No axioms: `Print Assumptions` under each property theorem prints "Closed under the global
  context". (A scan of all loaded libraries lists `Coq.ssr.ssrunder.Under_rel.*`; they come with
  the standard library's `ssr` files and no theorem here depends on them.)
