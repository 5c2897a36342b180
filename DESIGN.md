# Design of the formal model of abe-lsss

This directory holds a Coq 8.16.1 model of the C++ library abe-lsss and proofs about it.
`properties.jsonl` lists the properties, `MANIFEST.json` maps them to theorems,
`rocq/theories` holds the development, `seeded/LOG.jsonl` the wrong programs the theorems were tried against.

## Approach

* The code is modelled function by function as total Gallina functions. Each definition cites the file and lines it models.
* `std::string` and `OpenABEByteString` are lists of 8-bit characters (`list ascii`), so no well-formedness side condition on bytes is needed.
* Integers are `Z` with the wrap-around of the C++ type written out where it can matter. Lengths and indices are `nat`.
* Outcomes are explicit: a value, a thrown exception, `exit`, or undefined behaviour. Loops that are not structurally recursive get fuel and an explicit out-of-fuel outcome which is proved unreachable.
* Where the code mutates an object before failing, the model returns the mutated object together with the failure.
* Specifications are stated separately from the model (boolean formulas, integers, lists, grammars).
* A property that is false of the code is refuted by a concrete witness (`..._refuted`), and the largest true part is proved next to it.

## Trusted base

* Coq's kernel, including `vm_compute` as used for concrete witnesses and finite table checks.
* The axioms printed by `Print Assumptions` beside each property theorem (see the end of this file).
* The reading of the C++ code embodied in the model files; nothing was compiled or run.
* External components are parameters of the theorems, never axioms: the random generator (an arbitrary tape), the pairing groups (a record of operations with the laws of a bilinear group of prime order), hash functions, AES-GCM, `mktime`, RELIC's group element encodings.

## Plan per property

| id | property | model and proof |
|---|---|---|
| C01 | pack/unpack inverts at any position | ByteString.v models pack/unpack byte by byte with explicit reduction of the length to 32 bits; proof by list induction on the copy loop and big-endian arithmetic (lia with div/mod). |
| C02 | smartPack sequences read back in order | Same model; induction on the list of payloads, case split on the three length classes. |
| C03 | unpacking never reads outside the buffer | Same model; every at() is a partial read returning an exception; induction on the copy loop shows the result is a slice. |
| C04 | hexadecimal conversion is exact | Digit-level model of sprintf/strtol; finite case analysis on digits, induction on the string. |
| C05 | byte-string comparison is equality and data-independent in work | Model of the OR-accumulator over an explicit counted loop; invariant acc=0 iff equal so far. |
| C06 | byte-string serialize/deserialize | Model of both functions with the 5-byte header; arithmetic on the declared length. |
| C07 | XOR with a non-empty mask is an involution | Model of the cyclic loop with UB on an empty mask; pointwise proof. |
| C08 | getSubset returns exactly the requested slice or nothing | Model with 64-bit wrap of start+num and 32-bit truncation of the count; case analysis. |
| C09 | Base64 round trip | Hash.v models the 3-byte/4-character loops; induction in steps of 3 bytes. |
| C10 | Base64 decoding is injective on accepted canonical text and rejects foreign characters | Same model; termination by structural recursion, length bound by induction; injectivity from C09. |
| C11 | ZP arithmetic is arithmetic modulo the group order | Field.v models the macros on Z with an explicit order; proofs from Znumtheory (prime order, Bezout inverse). |
| C12 | ZP serialisation round trip | Model of bn_size_bin/bn_write_bin/bn_read_bin as minimal big-endian; UB outcome when the declared length exceeds the buffer; the value read is congruent to the declared bytes; refutation for the order itself, which is not reduced. |
| C13 | policy parsing is total | Scanner.v (the real flex DFA tables) + Parser.v (the real bison tables and driver loop, with fuel and an explicit out-of-fuel outcome); termination proved by a ranking argument, shape by an invariant on semantic values. |
| C14 | AND binds tighter than OR, both associate left, parentheses override | A stratified expression grammar with its own denotation; induction shows the table-driven parser returns the denotation. |
| C15 | whatever is accepted was written by the user | LR validator: finite checks on the tables evaluated in the kernel, then an invariant relating the stack to derivations of the grammar of zparser.yy. |
| C16 | printing and re-parsing a policy is the identity | Lemmas about scanning printed text plus the completeness lemma of C14. |
| C17 | a policy text is enforced in full | Expected false for bytes >= 0x80 and NUL (token code <= 0 is taken as end of file): refutation by witness; positive theorem for texts of 7-bit non-NUL characters. |
| C18 | numeric comparisons mean what they say | Numeric.v models bit markers and comparison trees on strings; induction on the bit index; markers proved injective. |
| C19 | numeric ranges mean what they say | Corollary of C18 lemmas for the AND of two comparison trees. |
| C20 | values of different widths or names never match | Injectivity of marker strings in name, width, bit and value; the scanner rejects user-written names containing "expint". |
| C21 | calendar dates behave as numbers of days | mktime is an oracle (day number); the trees are those of C18; the prefix "time" is a separate refutation. |
| C22 | attribute list text yields exactly the written attributes | Parser completeness for attribute lists, induction on the list. |
| C23 | compact string of an attribute list re-creates the list | Model of toCompactString; composition with C22; partial where the code loses information. |
| C24 | a numeric attribute has one value | Expected false (x=1\|x=6): refutation by witness; positive theorem for lists where every numeric name occurs once. |
| C25 | adding an attribute at the root strengthens or weakens the policy exactly | Composition of C14/C16 style parser lemmas with the satisfaction semantics. |
| C26 | shared secrets are recovered exactly | Lsss.v models the stack loops over a tree with mutable flags; loop-to-recursion lemmas; interpolation for two points modulo a prime. |
| C27 | recovery succeeds exactly when the policy is satisfied | Same; marks computed by the loop equal boolean evaluation; monotonicity by induction on the tree. |
| C28 | unauthorised shares reveal nothing about the secret | Explicit tape transformer, shown to be an involutive-inverse pair and to preserve the visible shares, by induction on the tree. |
| C29 | recovery uses only held attributes, one branch per OR | Induction on the tree over the marking function; minimality by induction. |
| C30 | every leaf keeps its own share | Model of leaf indices from the driver state; injectivity of label + "%" + decimal index. |
| C31 | gates with more than two children | Expected false for three or more children (squared running product): refutation by witness and a proof for at most two children. |
| C32 | checkIfSatisfied is repeatable and side-effect free | State after the check equals the reset state; induction on the list of checks. |
| C33 | recoverCoefficients does not depend on earlier calls | Expected false (stale visited flags): refutation by witness; positive theorem when resetFlags is called in between. |
| C34 | the satisfied-count guides to the cheapest key | Expected false (an OR reports direct children, not leaves): refutation; positive theorem for policies without OR above AND. |
| C35 | CP-ABE decryption inverts encryption | Scheme.v over an abstract bilinear group (record of operations; laws in SchemeSpec.v), with the LSSS and parser theorems; end to end through the mask, for both orders of key generation and encryption and every history of other calls in between (SchemeFrame.v); a refutation for names with equal short forms. |
| C36 | CP-ABE decryption fails cleanly | Same model: for every key and ciphertext content the unsatisfied case returns 32 and changes nothing; code 0 only if satisfied. |
| C37 | KP-ABE decryption inverts encryption | As C35 for the key-policy scheme. |
| C38 | KP-ABE decryption fails cleanly | As C36 for the key-policy scheme. |
| C39 | the one-time mask never repeats within a message | Mask block inputs modelled with the one-byte counter; refutation by periodicity beyond 256 blocks and distinctness below. |
| C40 | container round trip | Container.v: sorted association list of typed components, byte-exact serialisation; induction on the component list; group element encodings are abstract injective codecs. |
| C41 | ciphertext export/load round trip | Header model + C40. |
| C42 | malformed ciphertexts and keys are rejected | Case analysis of the loader on arbitrary blobs. |
| C43 | key export/import round trip | Header model + C40 for keys. |
| C44 | looking up a component does not change the container | Expected false (operator[] inserts a null entry): refutation; export after a failed lookup is undefined. |
| C45 | container equality is content equality | Expected false: refutation; partial positive statement. |
| C46 | keystore returns the last key added | Keystore.v state machine; invariant over operation histories by induction. |
| C47 | checkSecretKey reports existing secret keys only | Expected false after a failed lookup: refutation; positive direction proved. |
| C48 | key manager isolates users | KeyMgr.v state machine with parsing abstracted by the modelled functions; invariant by induction on histories. |
| C49 | search finds a working key when one exists | Model of filter/test/sort; induction on the key list. |
| C50 | deleted keys are gone | Expected false (metadata is never erased): refutation. |
| C51 | storing a key under a fresh prefix never destroys another key | Expected false (counter wraps at 20, IDs shared by users): refutation; positive theorem under freshness. |
| C52 | a failed store changes nothing | Expected false (the old entry is erased first): refutation; positive theorem for fresh identifiers. |
| C53 | authenticated encryption handler round trip | Sym.v with an abstract AEAD satisfying the round-trip law; case split on empty plaintext. |
| C54 | no plaintext without authentication (one-shot) | Same model; the plaintext is produced only on the accept branch. |
| C55 | streaming decryption reports forged tags | Stream state machine + context wrappers that drop the return code: refutation at the context level, positive theorem at the key level. |
| C56 | streaming encryption is independent of chunking | Abstract incremental AEAD (state transformer over concatenation); induction on the chunk list. |
| C57 | stream calls out of order are reported | Expected false for encryption (silently NOERROR): exact characterisation per call. |
| C58 | symmetric key export/load round trip | Byte-exact model of both directions; refutation at the context level (the non-const method is hidden). |
| C59 | symmetric key equality compares key material | Expected false: refutation; reflexivity is all that holds. |
| C60 | HKDF returns exactly the requested length and extends consistently | HKDF loop over an abstract HMAC; induction on blocks. |
| C61 | scheme identifiers convert consistently | Finite table model; case analysis over all 256 identifiers. |
| C62 | attribute hashing keeps policy semantics | Model of replaceAll and the ordered replacement; partial theorem under a no-substring hypothesis; refutation otherwise. |
| C63 | attribute-list equality is set equality | Expected false: model of set_difference on unsorted ranges; refutation. |
| C64 | copying a policy preserves its meaning | Model of the copy constructor that drops leaf indices: refutation for duplicated attributes, positive theorem for satisfaction. |
| C65 | integer serialisation round trip | Big-endian arithmetic. |
| C66 | operator+(std::string) concatenates | Expected false: the iterator overload is not the one selected; refutation, and the exact condition under which it holds. |
| C67 | one LSSS object can serve several policies | The object state includes the attribute multiplicities; refutation by witness (stale multiplicities), positive theorem when the earlier policies had no duplicates or the new one has. |
| C68 | secret sharing does not depend on assertions being enabled | The assertion that contains the threshold assignment is a parameter of the model; without it every policy with a gate hits undefined behaviour. |
| C69 | keys derived by DeriveKey have the requested length and entropy | Counter loop over an abstract hash with the hash length as an argument; exact stream for 32, refutation for the default 256 (bits passed as bytes). |
| C70 | component names keep attributes apart | Direct model; length bound, refutation of injectivity for every hash. |
| C71 | a loaded ciphertext can be exported again | Expected false (a policy component is stored as null): refutation; partial positive statement by induction over the loader loop. |
| C72 | everything that can be put in a container survives export and load | Expected false: one refutation per corner case (no components, integer width, empty name, policy object, long uid). |
| C73 | deleting a key wipes its material | Heap model of key objects: zeroize is a no-op; refutation, and the material is unchanged for every store. |
| C74 | storing a key is always reported, never a crash | Expected false (null function input dereferenced, assert on the user name): refutation. |
| C75 | a stored key can be retrieved | Key round trip (C43) + printers and parsers (C16, C23) + manager invariant; kept by induction on commands. |
| C76 | a stream cipher object can be used for several messages | Exact session theorem gives the associated data left in the object; refutation for every non-empty associated data, positive theorem for the default. |
| C77 | stream decryption accepts only full tags | Same session theorem with the tag check on a prefix; refutation for every key and ciphertext. |
| C78 | every key a handler accepts can be used | Expected false: 16-byte keys pass the handler but the cipher reads 32 bytes; refutation, positive theorem for the handle class. |
| C79 | starting a stream session twice is reported | Case analysis: encryptInit reports, decryptInit does not (refutation). |
| C80 | symmetric key handle round trip | Model of the three-field blob; round trip for non-empty plaintexts, refutation for the empty one. |
| C81 | loading a malformed symmetric key is reported | Expected false: the empty blob loads an empty key; refutation in every state. |
| C82 | streams of any length can be finished | The byte counter is 32 bits wide: refutation for every stream of 4 GiB or more. |
| C83 | the empty plaintext survives with authenticated data | Expected false: the parsing of the fields shifts; refutation. |
| C84 | finishing an encryption yields a tag | Expected false without updates; refutation in every state. |
| C85 | authenticated data binds handlers | Exact result of reading a ciphertext with another handler. |
| C86 | symmetric-key context round trip | Composition of the session theorems of the context. |
| C87 | encryption and decryption sessions do not interfere | Step independence, then induction on the call list. |
| C88 | identifiers name the key last generated or loaded | Invariant relating the store to a specification computed from the observed trace; induction on the history. |
| C89 | key generation uses free identifiers and only those | Direct, with a refutation: a failed lookup reserves the identifier. |
| C90 | generating parameters never touches existing keys | Case analysis of the lookups of generateParams on an arbitrary store. |
| C91 | keys survive unrelated calls | Invariant over histories (each call keeps every key it does not replace); refutation for a user key named like the master key. |
| C92 | missing keys and wrong inputs are reported | Direct on the model of each call. |
| C93 | a hostile ciphertext is refused, not executed | Refuted by three ciphertexts; for all others an invariant over decryption with an issued key (every loop step either throws an error code or continues) gives an answer. C93_exact follows the execution to the first step that is not answered, so that the set of harmful ciphertexts is characterised exactly (iff). |
| C94 | a failed decryption leaves the ciphertext usable | Refuted; the positive part (unsatisfied policy) is C36. |
| C95 | keys and ciphertexts can be used in other processes | DeliverySpec.v states the three processes as a relation; the components made by generateParams, keygen and encrypt are shown portable, so the container round trips (C41, C43) apply, and the scheme lemmas of C35/C37 are stable under same-content. |
| C96 | exports of a key do not change | Invariant over histories: lookups of names a key has do not change it; refutation for a user key passed as master key. |
| C97 | components: the last write wins | Induction over the sequence of calls against a last-write specification; refutation for the code of deleteComponent after a failed lookup. |
| C98 | the list of active users is exact | Induction over the history against a two-line recursive specification of registrations and deletions. |
| C99 | the text of an attribute list identifies it | No attribute made by the parser is empty or contains a bar, so cutting at bars is unique. |
| C100 | users who put their keys together gain nothing | CollusionSpec.v defines what a coalition holds and the computations on it (products of powers of pairings, as in the generic group model). The exponent of an outcome is a polynomial in the drawn exponents; a choice of 0/1 values and points from the vectors that separate the policy (C19, C20) makes it differ from the exponent of the secret. The converse uses the recovery coefficients. |
| C101 | the key manager finds a key that opens the ciphertext | FindSpec.v says what an issued key and a sent ciphertext are (the steps of C95). The input a key blob and a ciphertext blob report is shown to be the one they were made for, so that fitting (C49) coincides with being able to decrypt (C95). |
| C102 | threads may share a key manager | Threads.v cuts every call into its accesses to the members of the object, in program order, with the lock taken and released where the code does; a step relation interleaves any number of threads. ThreadsSpec.v defines race, deadlock and "one after the other" without it. Invariant over all schedules: the lock holder is the only thread inside a locking call and the object is what the completed calls leave plus the holder's own steps. |
| C103 | starting and stopping the library | model (Library.v) the global state of zabe.cpp and the per-thread RELIC context as a machine over a history of calls by numbered threads; RELIC's answers are arbitrary functions. Specification over the history alone (on, prepared, well_used). Guard by induction on the history; release on destruction and a failed start are refuted for every such history. |
| C104 | the plaintext enters the ciphertext only under the pad | compare two runs of encrypt (Scheme.v) that differ in the plaintext; relational lemma through encrypt_kem; the pad is hashFromBytes of the key. That it does not repeat is refuted beyond 8192 bytes (C39). |
| C105 | altered ciphertexts are detected | refuted in general form: relational lemma that decryptKEM reads neither the header nor the carrier, hence decrypt of any altered ciphertext succeeds with the same bits flipped. |
| C106 | random choices are never used twice | two runs of the same call with different random sources that agree on the positions the call used; position monotone over histories; inversion of encrypt and keygen to show the exponents. |
| C107 | public-key messages arrive | Pke.v over an abstract encapsulation (record of its virtual functions); agreement is a hypothesis about decryptKEM on ciphertexts that carry the encapsulation; proved for one-pass Diffie-Hellman (compiled out in the repository) as the instance. |
| C108 | public-key messages are authenticated | inversion of decrypt; exact outcome with the AEAD of Sym.v; collision form for alterations (a 16-byte tag cannot be injective). |
| C109 | public-key contexts load only valid keys of their scheme | case analysis of the load; no exception carries code 0; transport with C43; the null pairing is proved to crash for every well-formed blob. |
| C110 | parsing and policies never touch freed memory | Memory.v runs the parser of Parser.v with the address of every object beside its value and writes each allocation, read and deletion to a history (bison's value stack, lookahead, destructors, the actions' deletes, reference counts of tree nodes). Invariant: every live object is in exactly one place (a value on the stack, the lookahead, the driver's policy, a policy of the program, a child of a node, or lost). One lemma per grammar rule, then induction over the run and over the program. The values are shown to be those of Parser.v. |
| C111 | parsing and policies give their memory back | counting with the invariant of C110; refuted by the smallest gate: children are never deleted. Exact amounts for accepted policies, destruction, attribute lists and single attributes. |
| C112 | components of keys and ciphertexts are never used after they are gone | ContMem.v maps names to addresses with a history as in C110; ContMemSpec.v says what a program with values should see. Simulation with Container.v; ghost owner of every object. |
| C113 | containers give their memory back | with the invariant of C112: destruction deletes exactly what is held, everything else stays; refuted for replaced and erased components; holds for programs that do neither. |
| C114 | containers can be copied | refuted by a copy and by an assignment; programs that destroy nothing are safe. |
| C115 | arithmetic on field elements is arithmetic modulo the order | Element.v models the rest of the class ZP (constructors, multInverse, setRandom, setFrom, power by a ZP) and expressions and assignments over it; ElementSpec.v gives the value of an expression modulo p as a relation that never mentions the model. Induction on expressions: the model yields exactly the related value, or there is none. Refuted where no operand has an order. |
| C116 | comparisons of field elements are consistent | comparisons and shifts in Element.v; order laws by integer arithmetic, equality with C115. Refuted for shifts and the constructor from text, which do not reduce. |
| C117 | the group operators do what their names say | the operators as calls of an abstract group (`relic`), laws in ElementSpec.v; expressions by induction, scalars with the order of the group. Refuted: the binary minus of G1 and G2 ignores its left operand. |
| C118 | point compression can be switched at any time | `curve_at` is the library with the flag at a value; a loop invariant over writing with one flag and reading with another. Exact: everything but points of G1 and G2 is read back; with such a point the process ends. |
| C119 | the size reported for a group element is the size of its serialization | lengths of `smartPack`. Exact: right for encodings up to 255 bytes, too small above (GT). |
| C120 | an attribute list can be built one attribute at a time | `add_attribute`, `make_list` (AttrList.v) against the meaning of single attributes; agreement with the joined text by the exact description of list texts (C22). Refuted: a malformed number dereferences a null pointer; a name also used with a number. |
| C121 | a built attribute list can be serialized and copied | the compact form of a built list is the text of the same attributes, names first; then C120. FuncInput.v models copyFunctionInput. Refuted: strings are stored unchecked ("guest\|admin" comes back as two attributes, "two words" not at all); copying a policy gives a null pointer. |
| C122 | no part of a key stream is used twice, whatever objects share a key | SymKeys.v puts handles, handlers and contexts in one room and runs programs over it; NonceSpec.v says which bytes of which nonce a piece of output uses. Invariant over the run: every piece's nonce is the draw made for it, and a context's pieces follow one another. |
| C123 | a symmetric key can be taken out of its handle and used elsewhere | `export_raw_key` and `export_key` (SymKeys.v) by computation over an arbitrary key; the length from that of HMAC. |
| C124 | many parties and authorities: everyone is told what a world without cryptography would tell them | Refinement. NetworkSpec.v: parties, names, authorities and documents without any cryptography (the ideal); Network.v: one context per party, one random generator, keys and ciphertexts carried as bytes by the modelled export and load. NetworkStore.v and NetworkProofs.v: an agreement relation between the two kept by every call; PropNetwork.v instantiates it for both schemes. Said nothing about: a key of another authority whose policy holds (the code gives back garbage or an error), exported master keys (a zero scalar cannot be read back), decryption named with a master key. |
| C125 | every error code has a text of its own | Factory.v models the switch as a table; case analysis over the declared codes.  Refuted for three declared codes that have no case, one of which a stream answers. |
| C126 | a context asked for by identifier is one of that scheme | Factory.v; case analysis for the identifiers, the travel lemmas of NetworkStore.v for the keys. |
| C127 | secrets are wiped when a call is done | Residue.v: byte strings with the block they live in (elements, and what is behind them up to the capacity), the regions freed, left on the stack and never freed by encrypt, decrypt and the symmetric objects; the growth policy of vectors is arbitrary.  The two byte strings the code wipes hold nothing (proved); every other copy stays (refuted for every message, with what can be read from it). |
| C128 | calls give back the memory they took | The same model: the regions no one owns and no one freed.  Refuted; the exact loss per call. |
| C129 | the stack a call needs does not depend on the message | The same model: the size of the variable-length array.  Refuted for every bound; the exact need, and the messages that fit. MaskRoom.v runs the whole calls (encrypt, decrypt, DeriveKey, the two stream updates) with a given number of bytes free: exact need of each, and for every stack below 2^31-32 bytes a message of that length that is encrypted with enough stack and overflows with that much, in both schemes. |
| C130 | short texts make small policies and attribute lists | Induction over sentences: each comparison gives at most as many leaves as its width, each construct has at least three tokens per 32 leaves, each token at least one character; same for items of lists.  Reached by "a<1" and "a=1". |
| C131 | the shape of a ciphertext or key tells the policy or attributes and the message length, and nothing else | A specification of what is shown (OutlineSpec.v: names, kinds, lengths), and a step-by-step proof that every successful encrypt and keygen leaves exactly that, for any engine and state; then the length of the exported bytes as a function of it, when elements of a group are written with equally many bytes (RELIC writes only the point at infinity differently). |
| C132 | ciphertexts are as large as they must be | Counting the names of C131 (distinct when the 16-character labels do not collide); bounding the bytes with C130. |
| C133 | threads may encrypt and decrypt with one context at once | SharedCtx.v: every call as a program of accesses to the maps and key objects of the store with calculations in between, and machines of such programs under any schedule. SharedProofs.v: run alone, the programs are the functions of Scheme.v; a lookup either only reads or makes the store heavier, so a call that leaves the store as it is only read; machines of readers keep the store, race never and answer as each thread alone (invariant over the schedule). |
| C134 | other uses of one context by several threads are safe too | The same machines. Refuted: a lookup that finds nothing inserts an entry (missing keys; exporting a user key looks in the public map first); making and deleting keys write maps others read; two generateParams of the same names both succeed and leave public parameters and a master key that do not belong together. |
| C135 | policies that mean the same give the same answers | PropAlgebra.v: a session makes parameters, issues a key, encrypts and decrypts in worlds of any shape; what is heard depends on the truth value of the policy as written over the list as written (PolicyTruth.v) and on nothing else. |
| C136 | more attributes never take access away, and their order does not matter | The same sessions, with lists whose items extend another's. Partial: appending items at the end; and any rearrangement or extension in which no number of an attribute comes before its bare name. Refuted in general: a number put before the bare name takes the name away (the parser counts the name as already seen). |
| C137 | calls on an encryption context fail with a known code and let no exception escape | PropCodes.v: a judgement "raises no exception but these codes" with rules for the constructs of Scheme.v, over any world; the loops by induction. Code 24 (nothing to pair) is excluded because a met policy has at least one row. The meanings by following the lookups; code 32 by inversion of the whole call. |
| C138 | loading a key either adds exactly that key or reports a code and changes nothing | The same file: case analysis of the call. Refuted: the code part; loadKey catches nothing, so exceptions of both kinds reach the caller and a part of a wrong size ends the process. |
| C139 | no accepted policy exhausts the stack when it is printed or copied | Depth.v runs the two recursive functions with room for a given number of nested calls; PropDepth.v shows that they need exactly the height of the tree. Partial: room in proportion to the length of the text is enough (32 calls for three characters). Refuted as stated: for every amount of room there is an accepted text of 8 characters per call that overflows it. |
| C140 | no accepted policy exhausts the stack when a ciphertext is decrypted | PairRoom.v runs decryption with room on the stack for a given number of pairs of group elements (the arrays of multi_pairing). Partial: room in proportion to the length of the policy text is enough. C140_need: a policy of ANDs needs room for every leaf. Refuted as stated: for every amount of room (below 10^13 pairs, so that the row names stay short) there is an accepted policy for which decryption succeeds with enough stack and overflows with that much. |
| C141 | a long policy is read like a short one | Buffer.v models the flex buffer: the matching loop over the characters of the buffer and its two end markers, the action for the end marker, yy_get_next_buffer with moving, enlarging and reading, yy_get_previous_state and yy_try_NUL_trans. Proof: an invariant over the gotos (what was read of the present piece, the state after it, what is left in the buffer and in the stream) shows that each match is the match of Scanner.v in the whole text, or that the size of the buffer overflows. The specification speaks of runs of characters only. |
| C142 | what is printed tells what it was | Printed.v models the four text forms and RELIC's reading of hexadecimal. Proved as equivalences (same text, same value) for elements and integers, as a round trip for hexadecimal, and as injectivity for lists made from a text. Refuted for lists built attribute by attribute (an attribute may hold a newline) and for the hexadecimal text of negative numbers (no sign). |
| C143 | work in proportion to the text | Work.v counts the transitions of the scanner, those repeated by yy_get_previous_state, and the characters yy_get_next_buffer moves. Proved: two transitions per character with the whole text at hand, and through the buffer at most a factor of the longest name more (C143_buffered_partial); four parser steps per character; 64 (sharing, recovery, reset) and 96 (marking) rounds per three characters, for all flags (LoopWork.v). Refuted for the buffered scanner: a single name costs the square of its length (C143_word), as every refill scans it again from its start. Not counted: the cost inside a round (map accesses, field operations) and the copies of the semantic values. |
| C144 | keys live as long as they are held | StoreMem.v puts reference counts under the stores of Keystore.v, with a step for every copy and end of a shared_ptr in zkeystore.cpp, and marks a use of a deleted object. Proved by the invariant that each count is the number of pointers in the caller's hands and in the maps of the stores that exist; the specification (holds) speaks of lookups in the maps only. zeroize (called by deleteKey and the destructor) leaves the key as it is (Keystore.v), so a key that survives keeps its contents. Not modelled: counts shared between threads. |
| C145 | changes through component pointers | ContWrite.v adds assignment through a pointer to the programs of ContMem.v. The invariant of ContMemProofs.v carries over; two more lemmas say that an old address appears in a container only under the name it had before, and that an entry stays unless its name is touched. The specification (seen) is the value under a name. Not covered: programs that copy containers (refuted safety in C114), and what loading a text does to pointers beyond changing no other name. |
| C146 | objects of the streaming encryption | StreamMem.v gives the stream objects and cipher contexts addresses and writes every creation, use and deletion to a history, following the control flow of zsymkey.cpp and zcontextske.cpp; results are those of Sym.v (C146_same proves the two run alike). The specification is legal and all_freed of MemorySpec.v. Invariant: the owned addresses are exactly those created and not deleted, and a stream has a cipher context exactly when a session is open. A program ends at a call with undefined behaviour of another kind (a key shorter than 32 bytes, data of 2^31 - 1 bytes or more), and its history up to and including that call is still legal. Not covered: failures inside OpenSSL and the random generator. |
| C147 | temporary objects of encryption in one call | OneShot.v writes the creations, uses and deletions of the cipher context, the output block and the key object of a handle to a history, with the results of Sym.v. False: the assertion on the tag length in decrypt throws after the cipher context was made and before it is freed (C147_refuted: three bytes of junk cost a cipher context each time they are sent). C147_exact counts the lost objects: one for each call that passes on a tag of another length than 16. C147_success_partial: programs whose calls succeed lose nothing. Invariant as for C146. Not covered: failures of OpenSSL, malloc and the random generator. |
| C148 | exporting gives back the memory it took | ExportMem.v keeps the arrays of getBytes, with their contents and a history, beside the exports of Container.v. False: serialize of a group element never frees the array (C148_refuted: n exports lose n times as many arrays as there are group elements; C148_secret_refuted: those of a key hold its secret components). C148_exact gives the arrays that stay, in order; C148_plain_partial: nothing is lost exactly if no component is a group element. C148_ciphertext_refuted and C148_key_refuted give the loss for what encrypt and keygen make, by C131. Not covered: elements that are not initialized, memory of RELIC, and failures of malloc. |

## What is modelled and what is not

File by file. "All" means every compiled function with an effect a caller can observe. Debug output is not modelled anywhere. Memory ownership (who deletes which pointer) is modelled for the parser, policy trees and their reference counts (Memory.v), for the components of containers (ContMem.v), for the keys of the stores (StoreMem.v) and for the streams and cipher contexts of streaming encryption (StreamMem.v), for the temporary objects of encryption in one call (OneShot.v) and for the arrays of exported group elements (ExportMem.v), and nowhere else.

| file in /repo | model | not modelled |
|---|---|---|
| include/lsss/zbytestring.h | ByteString.v: all; Residue.v: the block behind a byte string (capacity, what clear, assignment, growth and zeroize leave) for the functions used by encrypt and decrypt | the block behind byte strings elsewhere |
| include/lsss/zinteger.h | UInteger.v: all | |
| src/lsss/zelement_bp.cpp, zelement.h (ZP) | Field.v: +, -, *, /, power, negation, order, ==, membership, serialisation ; Element.v: comparisons, shifts, `setFrom`, `setRandom`, `multInverse`, constructors, expressions and assignments; Printed.v: text | `setPrime`. RELIC's `bn_*` are taken as integer arithmetic |
| src/lsss/zelement_bp.cpp (G1, G2, GT) | Container.v, Scheme.v: as abstract groups (`curve`, `engine` records with the laws of a bilinear group of prime order); serialisation around RELIC's `write_bin`/`read_bin` ; Element.v: operators, compression flag, sizes | RELIC itself, `hashToBytes` other than as the digest of the serialisation |
| src/lsss/zscanner.cpp (flex), zscanner.ll | Scanner.v: the tables and the matching loop; Buffer.v: the buffer and its refills; Work.v: the number of transitions and of characters moved | `%` options, the interactive and debug code |
| src/lsss/zparser.tab.cc (bison), zparser.yy | Parser.v: the tables, the parsing loop and all actions | parse traces, location tracking, error message text |
| src/lsss/zdriver.cpp | Driver.v: all but `flexint_leader` and `kofn_tree`, which nothing calls | text printed to std::cerr |
| src/lsss/zpolicy.cpp, zpolicy.h | Policy.v: nodes, thresholds, printing, copying, flags, createPolicyTree; Depth.v: the two recursive functions with limited stack | `OpenABEPolicy::serialize` (its body is empty) |
| src/lsss/zattributelist.cpp | AttrList.v; Printed.v: operator<<; `setAttributes` as part of Driver.v `set_attrlist` | |
| src/lsss/zfunctioninput.cpp | Driver.v, Keymgr.v, FuncInput.v: type tags, creation, `copyFunctionInput` | |
| src/lsss/zlsss.cpp | Lsss.v: all | uint32 counters over the children of one node |
| src/lsss/hashattributes.cpp | Base64.v, HashAttrs.v: all compiled functions | BLAKE2s (a parameter); the `#if 0` helpers |
| src/lsss/zobject.cpp | Memory.v: reference counts (refCount, deRef) of policy nodes | OpenABEZeroize |
| src/abe/zcontainer.cpp, zciphertext.cpp, zkey.cpp | Container.v: all; ContMem.v: the component pointers; ContWrite.v: changes through them | |
| src/abe/zkeystore.cpp | Keystore.v, Container.v, StoreMem.v (pointers, destruction): all compiled functions | counts shared between threads |
| src/abe/zkeymgr.cpp | Keymgr.v: all; Threads.v: interleavings of its calls | wall-clock expiry is an argument |
| src/abe/zkdf.cpp, hashFromBytes of zpairing.cpp | Kdf.v: all; MaskRoom.v: with limited stack | SHA-256 and HMAC (parameters) |
| src/abe/zsymkey.cpp, zsymcrypto.cpp, zcontextske.cpp | Sym.v, SymKeys.v, StreamMem.v (pointers of the streaming classes), OneShot.v (temporary objects), ExportMem.v (arrays of exports): all (OpenABE_getSymmetricKey and OpenABE_deleteSymmetricKey inside the calls that use them) | AES-256-GCM itself (a key stream and a tag function as parameters), the OpenSSL error paths |
| schemes/zcontextcpwaters.cpp, zcontextkpgpsw.cpp, src/abe/zcontextabe.cpp, zpairing.cpp | Scheme.v: generateParams, keygen, encryptKEM, decryptKEM, encrypt, decrypt, exportKey, loadKey and its aliases, deleteKey, checkSecretKey; PairRoom.v: decryption with limited stack | |
| utils/utils.cpp, common.h | Utils.v, Keymgr.v, Query.v: identifiers, getFunctionInput of keys and ciphertexts | |
| utils/abecontext.cpp | Factory.v: both functions | |
| src/abe/zabe.cpp, include/abe_lsss.h (Library.v) | InitializeOpenABE, ShutdownOpenABE, OpenABEStateContext, the guard in OpenABEPairing, zMathInitLibrary and zMathShutdownLibrary as effects on the thread's RELIC state | what RELIC does in core_init and ep_param_set (their outcomes are arbitrary) |
| src/abe/zerror.cpp | Factory.v: error texts | |
| src/abe/zcontextpke.cpp | OpenABEContextSchemePKE over an abstract key encapsulation (Pke.v); OpenABEContextOPDH (under `#if 0`) as an example (PkeSpec.v) | which subclass a user writes |
| src/abe/zcontextcca.cpp, zcontextpksig.cpp | | under `#if 0` |

Simplifications that cut across files:

* Concurrency: the key manager is modelled with any number of threads (Threads.v), each call cut into its accesses to the members. Its lock is the only one in the library. The encryption contexts with their key store are modelled with any number of threads in SharedCtx.v: accesses to the two maps and to the key objects are the steps; the ciphertext belongs to the caller, the random generator to the thread (RELIC keeps a context per thread), shared_ptr counts are atomic. A shared_ptr is named by its map and identifier, so the model does not describe what a thread sees of an object that another has replaced or deleted meanwhile (such runs have a race anyway). Every other object is used by one thread.
* Allocation never fails.
* Sizes: `size_t` indices do not wrap. 32-bit length fields do, where the code truncates.
* `assert` is enabled (the default CMake build has no build type, so `NDEBUG` is not defined); C68 treats the other case.
* The random generator is a tape: `e_zp`, `e_g1`, `e_g2`, `e_bytes` give the value of the n-th draw. Theorems quantify over all tapes.

## Print Assumptions

Every theorem named in MANIFEST.json is followed by `Print Assumptions` in its file. Result per theorem: "Closed under the global context" for all of them; no axiom is used, not even of the standard library. The axioms `vcheck` lists (`Coq.ssr.ssrunder.Under_rel.*`) are declared in library files that are loaded; no theorem depends on them.

Theorems checked (479): C01_pack_unpack, C02_smart_sequence, C02_smart_single, C02_empty_writes_nothing, C03_smart_unpack_safe, C03_unpack_safe, C03_get32_safe, C03_get16_safe, C04_hex_roundtrip, C04_hex_accepts_iff, C05_equality, C06_roundtrip, C06_total, C06_only_wellformed, C06_empty_not_transmitted, C07_xor_involution, C07_xor_empty_mask, C08_get_subset, C08_wrap_refuted, C09_encode_exact, C09_roundtrip, C09_shape, C10_decode_exact, C10_length, C10_encode_injective, C10_text_refuted, C11_ring_operations, C11_second_order, C11_division, C12_roundtrip, C12_zero_not_transmitted, C12_out_of_bounds, C12_value, C12_order_refuted, C13_parse_total, C13_no_comma_total, C13_undated_total, C13_list_total, C13_dates_refuted, C14_text_parses, C14_unambiguous, C15_accepted_is_sentence, C15_exact, C15_colons_refuted, C16_print_parse, C16_numeric_refuted, C17_read_in_full, C17_rest_ignored, C17_full_text_refuted, C18_comparison, C18_policy_meaning, C19_range, C19_empty_range, C20_other_values, C20_bad_number_policy, C20_bad_number_list, C21_day_numbers, C21_calendar, C21_day_range, C21_time_prefix_refuted, C21_daylight_saving_refuted, C22_names, C22_trailing_rejected, C22_exact, C23_compact_roundtrip, C24_mixed_values_refuted, C24_single_value_partial, C25_add_to_root, C25_operator_refuted, C26_secret_recovered, C26_from_texts, C26_colons_refuted, C27_recover_iff_satisfied, C27_check_iff_satisfied, C27_monotone, C28_privacy, C28_tapes, C28_tape_length, C28_from_texts, C29_held_sufficient_minimal, C30_one_row_per_leaf, C30_percent_refuted, C30_from_text, C31_nary_refuted, C31_nary_partial, C32_checks_independent, C33_history_refuted, C33_after_reset_partial, C33_after_checks_partial, C34_count_refuted, C34_count_partial, C35_cp_round_trip, C35_short_names, C35_any_names_refuted, C36_refused, C36_refused_texts, C36_authorised_only, C37_kp_round_trip, C37_any_names_refuted, C38_refused, C38_refused_texts, C38_authorised_only, C39_mask_exact, C39_distinct_inputs, C39_mask_refuted, C40_container_roundtrip, C40_into_existing, C40_sorted, C41_ciphertext_roundtrip, C41_bare_roundtrip, C42_accepted_header, C42_bad_header_throws, C42_header_unique, C42_key_header, C42_truncated_refuted, C42_exit_refuted, C42_crash_causes, C43_key_roundtrip, C44_reports_missing, C44_found_unchanged, C44_lookup_refuted, C44_export_defined, C45_exact_partial, C45_numbers_and_elements, C45_bytes_refuted, C45_subset_refuted, C45_superset_refuted, C45_lists_refuted, C45_empty_refuted, C46_public_key, C46_secret_key, C46_any_key, C46_export, C46_delete_code, C47_lookup_refuted, C47_validate_refuted, C47_delete_refuted, C47_never_denies_partial, C47_without_lookups_partial, C47_exact_partial, C48_get, C48_search, C49_search, C49_askable, C50_deleted_refuted, C50_no_effect, C50_identifiers_partial, C51_users_refuted, C51_wrap_refuted, C51_prefixes_refuted, C51_other_partial, C51_fresh_partial, C52_malformed_refuted, C52_duplicate_refuted, C52_other_partial, C52_unused_partial, C53_round_trip, C53_empty, C53_key_object, C54_handler, C54_rejected, C54_handle, C54_object, C55_stream, C55_context_refuted, C56_encrypt, C56_chunking, C56_decrypt, C57_context, C57_stream_no_output, C57_stream_silent_refuted, C57_associated_data, C57_late_data, C58_object, C58_constructed, C58_context_refuted, C59_refuted, C59_header_partial, C60_hkdf_exact, C60_length, C60_prefix, C60_salt, C61_accepts, C61_names, C61_undefined, C61_strings, C61_identifiers, C62_hashing_keeps_semantics, C62_keyword_refuted, C62_substring_refuted, C62_colons_refuted, C62_rejected_refuted, C62_rejected_list_refuted, C63_always_equal, C63_list_equality_refuted, C64_copy_rows_refuted, C64_copy_satisfaction_partial, C65_roundtrip, C65_short, C65_width_not_transmitted, C66_plus_string_refuted, C66_plus_string_partial, C67_reuse_refuted, C67_reuse_partial, C68_release_build_refuted, C68_debug_build_partial, C69_bytes_length, C69_default_256, C69_default_refuted, C69_too_long, C70_short, C70_length, C70_injective_refuted, C71_reexport_refuted, C71_reexport_partial, C72_empty_refuted, C72_width_refuted, C72_empty_name_refuted, C72_policy_refuted, C72_long_uid_refuted, C72_no_components_refuted, C73_never_wiped, C73_wipe_refuted, C74_other_scheme_refuted, C74_no_user_refuted, C75_store_exported, C75_kept, C76_reuse_refuted, C76_default, C77_short_tag_refuted, C78_short_key_refuted, C78_no_key_refuted, C78_long_key, C78_handle, C79_second_init_refuted, C79_encrypt, C80_handle_partial, C80_empty_refuted, C81_empty_blob_refuted, C82_long_stream_refuted, C83_empty_aad_refuted, C84_no_tag_refuted, C85_other_data, C85_carried, C86_context_round_trip, C87_encryption, C87_decryption, C88_key_history, C88_used, C88_delete_code, C89_no_overwrite, C89_probe_refuted, C90_parameters, C91_keys_survive, C91_master_key_safe_refuted, C92_missing_reported, C92_absent_reported, C93_hostile_ciphertext_refuted, C93_answers_partial, C93_exact, C94_failed_decryption_refuted, C95_delivery, C96_parameters, C96_user_keys, C96_misused_key_refuted, C97_last_write, C97_delete_code_refuted, C98_active_users, C99_text_identifies, C99_text, C100_cp_collusion, C100_kp_collusion, C100_cp_member, C100_kp_member, C101_found, C102_serial_partial, C102_no_deadlock, C102_no_race, C102_replace_race_refuted, C102_register_race_refuted, C102_count_race_refuted, C102_search_abort_refuted, C102_duplicate_refuted, C103_guard, C103_prepared_partial, C103_failed_start_refuted, C103_thread_cleanup_refuted, C103_shutdown_starts_refuted, C103_again, C104_only_under_pad, C104_long_plaintext_refuted, C105_altered_refuted, C106_own_choices, C106_never_back, C106_encrypt, C106_keygen, C106_two_ciphertexts, C107_round_trip, C107_by_bytes, C107_refused, C107_diffie_hellman, C108_authentic, C108_untouched, C108_outcome, C108_altered, C109_load, C109_transport, C109_no_pairing, C109_no_pairing_refuted, C110_programs, C110_any_text, C110_same_result, C110_own_tree, C111_never_freed_partial, C111_cost_partial, C111_destroy_partial, C111_lists_freed_partial, C111_leaf_freed_partial, C111_refuted, C111_word_refuted, C112_programs, C112_values, C112_pointers, C112_own_components, C113_destroy, C113_never_freed_partial, C113_tidy_partial, C113_replaced_refuted, C113_erased_refuted, C114_copy_refuted, C114_assign_refuted, C114_nothing_destroyed_partial, C115_expressions, C115_programs, C115_constants_refuted, C115_assignment_refuted, C115_random, C116_order, C116_equality, C116_expressions, C116_shift, C116_shift_refuted, C116_text_refuted, C116_bytes, C117_expressions_partial, C117_target_expressions, C117_target_quotient, C117_scalars, C117_minus, C117_minus_refuted, C118_same_setting, C118_changed_setting, C118_settings, C118_refuted, C119_size, C119_refuted, C120_built, C120_added, C120_empty, C120_bad_number_refuted, C120_both_refuted, C121_built_travels, C121_unchecked_refuted, C121_lost_refuted, C121_copy, C121_copy_refuted, C122_pieces, C122_no_reuse, C122_handle_texts, C123_raw, C123_exported, C123_same, C124_as_ideal, C125_own_text, C125_others, C125_forgotten_refuted, C125_nameless, C125_answered_refuted, C126_which, C126_keys, C127_own_blocks, C127_zeroize, C127_left_refuted, C127_leak_opens_refuted, C127_shrunk_refuted, C127_handle_refuted, C127_object_refuted, C127_same_answer, C127_rejected_refuted, C128_leak_refuted, C129_derive, C129_stream, C129_encrypt, C129_decrypt, C129_calls_refuted, C129_need, C129_room_refuted, C129_fits, C130_policy, C130_attributes, C130_reached, C131_ciphertext, C131_same_shape, C131_length_shown, C131_key, C131_bytes, C131_key_bytes, C132_parts, C132_bytes, C133_one_thread, C133_together, C133_found, C134_missing_refuted, C134_export_refuted, C134_writer_refuted, C134_params_refuted, C135_same_meaning, C135_logic, C135_connectives, C136_append_partial, C136_orderly_partial, C136_more_refuted, C136_order_refuted, C137_codes, C137_meaning, C138_load_partial, C138_load_refuted, C139_exact, C139_bound_partial, C139_refuted, C140_enough_partial, C140_need, C140_refuted, C141_tokens, C141_policy, C141_list, C141_overflow, C141_overflows, C142_element, C142_hex, C142_negative, C142_sign_refuted, C142_integer, C142_list, C142_built_refuted, C143_transitions, C143_buffered_partial, C143_word, C143_scanner_refuted, C143_parser, C143_loops, C144_safe, C144_alive, C144_kept, C144_nothing_left, C145_safe, C145_elsewhere, C145_reaches, C145_replaced, C146_legal, C146_nothing_left, C146_same, C146_two, C146_idle, C146_stream, C147_legal, C147_exact, C147_third_part, C147_never_succeeds, C147_success_partial, C147_refuted, C148_same, C148_legal, C148_exact, C148_plain_partial, C148_refuted, C148_secret_refuted, C148_ciphertext_refuted, C148_key_refuted.
