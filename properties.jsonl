{"id": "C01", "title": "pack/unpack inverts at any position", "statement": "Appending a byte string with pack() to any buffer, followed by any further bytes, and calling unpack() with the index where it was appended returns exactly the packed bytes and leaves the index exactly after them.", "quantifier": "every prefix, payload shorter than 2^32 bytes, and suffix", "why_tests_cant": "Tests pick a handful of lengths; the claim covers every payload length (including 0 and those crossing byte boundaries of the length field) and every surrounding context.", "anchors": ["include/lsss/zbytestring.h:pack", "include/lsss/zbytestring.h:unpack", "include/lsss/zbytestring.h:pack32bits"]}
{"id": "C02", "title": "smartPack sequences read back in order", "statement": "Writing any list of byte strings with smartPack() and reading with smartUnpack() until the end returns exactly the non-empty strings of the list, in order, and stops exactly at the end; the empty string is the only payload that is lost (it writes nothing).", "quantifier": "every list of byte strings, each shorter than 2^32 bytes", "why_tests_cant": "Length class boundaries (0/255/256/65535/65536) and unbounded list length cannot be enumerated.", "anchors": ["include/lsss/zbytestring.h:smartPack", "include/lsss/zbytestring.h:smartUnpack", "include/lsss/zbytestring.h:unpack8bits", "include/lsss/zbytestring.h:unpack16bits"]}
{"id": "C03", "title": "unpacking never reads outside the buffer", "statement": "For every buffer and index, smartUnpack()/unpack()/get16bits()/get32bits() either throws out_of_range or returns a contiguous slice of the buffer with the index advanced to a position within the buffer; a throwing unpack() leaves the index untouched and a throwing smartUnpack() advances it by at most one.", "quantifier": "every (attacker-chosen) buffer and every start index", "why_tests_cant": "Memory safety on hostile input ranges over all byte strings.", "anchors": ["include/lsss/zbytestring.h:smartUnpack", "include/lsss/zbytestring.h:unpack", "include/lsss/zbytestring.h:unpack8bits", "include/lsss/zbytestring.h:unpack16bits", "include/lsss/zbytestring.h:get32bits"]}
{"id": "C04", "title": "hexadecimal conversion is exact", "statement": "fromHex(toHex(b)) and fromHex(toLowerHex(b)) restore b for every b; fromHex succeeds exactly on even-length strings of hex digits, accepts both cases, and on failure leaves the object unchanged.", "quantifier": "every byte string, every text, every prior object content", "why_tests_cant": "All 2^16 digit pairs in all positions plus all rejected texts.", "anchors": ["include/lsss/zbytestring.h:toHex", "include/lsss/zbytestring.h:toLowerHex", "include/lsss/zbytestring.h:fromHex"]}
{"id": "C05", "title": "byte-string comparison is equality and data-independent in work", "statement": "operator== returns true exactly when the two byte strings are identical, and the number of byte comparisons performed depends only on the lengths.", "quantifier": "every pair of byte strings", "why_tests_cant": "A wrong accumulator (e.g. += or early exit) is only exposed by special pairs.", "anchors": ["include/lsss/zbytestring.h:operator=="]}
{"id": "C06", "title": "byte-string serialize/deserialize", "statement": "Deserialising the serialised form of a non-empty byte string restores it whatever the target held; a blob whose declared length does not match its size leaves the target unchanged. The empty string is not transmitted: a non-empty target keeps its old content.", "quantifier": "every byte string, every blob, every previous content of the target", "why_tests_cant": "Round trip over all contents and rejection over all malformed blobs.", "anchors": ["include/lsss/zbytestring.h:serialize", "include/lsss/zbytestring.h:deserialize"]}
{"id": "C07", "title": "XOR with a non-empty mask is an involution", "statement": "Applying operator^= twice with the same non-empty mask restores the data, keeps the length, and byte i is combined with mask byte i mod |mask|; XOR with an empty mask of a non-empty string is undefined.", "quantifier": "every data string and every non-empty mask", "why_tests_cant": "All lengths of data relative to mask length.", "anchors": ["include/lsss/zbytestring.h:operator^="]}
{"id": "C08", "title": "getSubset returns exactly the requested slice or nothing", "statement": "getSubset(start,n) returns the n bytes from start when start+n does not exceed the size, and an empty string otherwise, for all requests whose sum does not wrap around size_t.", "quantifier": "every byte string, start and count with start+count < 2^64 and count < 2^32", "why_tests_cant": "All combinations of offsets, including those at the edges.", "anchors": ["include/lsss/zbytestring.h:getSubset", "include/lsss/zbytestring.h:appendArray"]}
{"id": "C09", "title": "Base64 round trip", "statement": "Base64Decode(Base64Encode(b)) = b for every byte string, the encoding uses only the URL-safe alphabet with '=' padding and has length 4*ceil(n/3).", "quantifier": "every byte string", "why_tests_cant": "Unbounded inputs, three residue classes.", "anchors": ["src/lsss/hashattributes.cpp:Base64Encode", "src/lsss/hashattributes.cpp:Base64Decode", "src/lsss/hashattributes.cpp:is_base64"]}
{"id": "C10", "title": "Base64 decoding is injective on accepted canonical text and rejects foreign characters", "statement": "Base64Decode stops being meaningful only on texts outside the image of Base64Encode: on every text it terminates without reading past the end, and its result has at most 3 bytes per 4 characters; two different byte strings never share an encoding.", "quantifier": "every text", "why_tests_cant": "All possible texts.", "anchors": ["src/lsss/hashattributes.cpp:Base64Decode"]}
{"id": "C11", "title": "ZP arithmetic is arithmetic modulo the group order", "statement": "For elements carrying the (prime) group order, +, -, *, unary -, / and power return the canonical residue in [0,order) of the corresponding mathematical operation; x/y*y = x for y nonzero; dividing by zero terminates the process rather than returning a value.", "quantifier": "every pair of elements and every prime order", "why_tests_cant": "Quantifies over a 254-bit field.", "anchors": ["src/lsss/zelement_bp.cpp:operator+", "src/lsss/zelement_bp.cpp:operator-", "src/lsss/zelement_bp.cpp:operator*", "src/lsss/zelement_bp.cpp:operator/", "src/lsss/zelement_bp.cpp:power", "include/lsss/zelement.h"]}
{"id": "C12", "title": "ZP serialisation round trip", "statement": "Deserialising the serialisation of any non-zero ZP element restores it; the zero element is not transmitted (the target keeps its previous value); a blob may declare more bytes than it has, in which case the library reads outside the buffer.", "quantifier": "every field element, every target, every blob", "why_tests_cant": "All lengths of the minimal big-endian form, plus hostile blobs.", "anchors": ["src/lsss/zelement_bp.cpp:ZP::serialize", "src/lsss/zelement_bp.cpp:ZP::deserialize", "src/lsss/zelement_bp.cpp:ZP::getLengthAndByteString"]}
{"id": "C13", "title": "policy parsing is total", "statement": "createPolicyTree terminates on every text and yields either no policy or a well-formed tree whose inner nodes are two-child AND/OR gates and whose leaves are attributes, for every text without date expressions.", "quantifier": "every byte sequence", "why_tests_cant": "All input texts of all lengths, including malformed ones.", "anchors": ["src/lsss/zpolicy.cpp:createPolicyTree", "src/lsss/zparser.tab.cc:Parser::parse", "src/lsss/zscanner.cpp", "src/lsss/zdriver.cpp"]}
{"id": "C14", "title": "AND binds tighter than OR, both associate left, parentheses override", "statement": "Every policy text written from the policy grammar with and/or/parentheses and attributes parses to the tree prescribed by: AND before OR, left association, parentheses grouping.", "quantifier": "every expression of the policy language, unbounded nesting and length", "why_tests_cant": "Unbounded expressions.", "anchors": ["include/lsss/zparser.yy", "src/lsss/zparser.tab.cc:yytable_", "src/lsss/zdriver.cpp:Driver::kof2_tree"]}
{"id": "C15", "title": "whatever is accepted was written by the user", "statement": "If createPolicyTree accepts a text, then the token sequence of the text is a sentence of the documented grammar and the tree returned is the one denoted by that derivation.", "quantifier": "every accepted text", "why_tests_cant": "Soundness over all inputs (a table error accepts extra sentences).", "anchors": ["src/lsss/zparser.tab.cc:Parser::parse", "include/lsss/zparser.yy"]}
{"id": "C16", "title": "printing and re-parsing a policy is the identity", "statement": "For every policy tree built from and/or gates over attributes that are legal names, createPolicyTree(tree.toString()) returns the same tree (gates, order and complete labels).", "quantifier": "every tree, every legal attribute name", "why_tests_cant": "Unbounded trees and names.", "anchors": ["src/lsss/zpolicy.cpp:OpenABETreeNode::toString", "src/lsss/zpolicy.cpp:createPolicyTree"]}
{"id": "C17", "title": "a policy text is enforced in full", "statement": "A policy that is accepted was read to the end of the text: appending bytes to a text never leaves an accepted policy with the appended part silently ignored.", "quantifier": "every text and every appended suffix", "why_tests_cant": "Depends on every byte value, including non-ASCII ones and NUL.", "anchors": ["src/lsss/zscanner.ll", "src/lsss/zscanner.cpp:Scanner::lex", "src/lsss/zparser.tab.cc:yytranslate_"]}
{"id": "C18", "title": "numeric comparisons mean what they say", "statement": "A policy 'c op v#b' (op in <,>,<=,>=,==; b in 4,8,16,32; plain numbers are 32-bit) is satisfied by an attribute list containing exactly the numeric attribute 'c=w#b' for the same c if and only if 'w op v' holds for the integers.", "quantifier": "every attribute name, operator, width and all pairs of values representable and accepted by the language", "why_tests_cant": "2^64 value pairs per operator.", "anchors": ["src/lsss/zdriver.cpp:Driver::cmp_policy", "src/lsss/zdriver.cpp:Driver::bit_marker_list", "src/lsss/zdriver.cpp:Driver::eq_policy", "src/lsss/zdriver.cpp:assign_stmt", "src/lsss/zdriver.cpp:bit_marker"]}
{"id": "C19", "title": "numeric ranges mean what they say", "statement": "'c in (a-b)' is satisfied by c=w exactly when a<w<b and 'c in {a-b}' exactly when a<=w<=b, for equal widths; an empty range is satisfied by no value.", "quantifier": "every name, width and triple of values", "why_tests_cant": "2^96 triples.", "anchors": ["src/lsss/zdriver.cpp:Driver::range_policy", "src/lsss/zdriver.cpp:Driver::range_incl_policy"]}
{"id": "C20", "title": "values of different widths or names never match", "statement": "A comparison at one bit width or attribute name is never satisfied by a numeric attribute of another width or name, nor by plain attributes a user can write; widths other than 4,8,16,32 and values that do not fit are rejected.", "quantifier": "all names, widths and values", "why_tests_cant": "Non-interference over all pairs.", "anchors": ["src/lsss/zdriver.cpp:bit_marker", "src/lsss/zdriver.cpp:checkValidBit", "src/lsss/zscanner.ll"]}
{"id": "C21", "title": "calendar dates behave as numbers of days", "statement": "With dates converted to day numbers d(.), a policy date comparison under prefix p is satisfied by the dated attribute of the same prefix exactly when the day numbers compare accordingly (p different from \"time\" and day numbers within the comparable range).", "quantifier": "every prefix, every date triple", "why_tests_cant": "All dates; edge day numbers.", "anchors": ["src/lsss/zdriver.cpp:Driver::set_date_in_policy", "src/lsss/zdriver.cpp:Driver::range_date_in_policy", "src/lsss/zdriver.cpp:Driver::set_date_in_attrlist", "src/lsss/zdriver.cpp:validate_date"]}
{"id": "C22", "title": "attribute list text yields exactly the written attributes", "statement": "createAttributeList on '|a1|a2|...|an|' of legal names yields exactly the distinct names in first-occurrence order, with or without leading and trailing separators.", "quantifier": "every sequence of legal names", "why_tests_cant": "Unbounded lists with arbitrary duplicates.", "anchors": ["src/lsss/zattributelist.cpp:createAttributeList", "src/lsss/zdriver.cpp:Driver::leaf_attr", "src/lsss/zdriver.cpp:Driver::concat_attr"]}
{"id": "C23", "title": "compact string of an attribute list re-creates the list", "statement": "createAttributeList(l.toCompactString()) has the same set of attributes as l, for every list created from text.", "quantifier": "every attribute list text", "why_tests_cant": "All mixtures of plain, numeric and date attributes; used for every key and ciphertext stored.", "anchors": ["src/lsss/zattributelist.cpp:toCompactString", "src/lsss/zattributelist.cpp:createAttributeList"]}
{"id": "C24", "title": "a numeric attribute has one value", "statement": "An attribute list never satisfies comparisons that no single one of its values for that name satisfies.", "quantifier": "every attribute list text", "why_tests_cant": "Requires arbitrary combinations of repeated numeric attributes.", "anchors": ["src/lsss/zdriver.cpp:Driver::attr_num", "src/lsss/zdriver.cpp:assign_stmt"]}
{"id": "C25", "title": "adding an attribute at the root strengthens or weakens the policy exactly", "statement": "addToRootOfInput(AND/OR, a, P) yields a policy satisfied exactly when P and/or a is satisfied.", "quantifier": "every accepted policy text, every legal attribute and every attribute list", "why_tests_cant": "Precedence interplay over all texts.", "anchors": ["src/lsss/zpolicy.cpp:addToRootOfInput"]}
{"id": "C26", "title": "shared secrets are recovered exactly", "statement": "For every policy accepted by the parser and every attribute list satisfying it, the sum over the recovered coefficients of coefficient times matching share equals the shared secret, whatever random coefficients were drawn.", "quantifier": "every policy, attribute list, secret, prime order > 2 and random tape", "why_tests_cant": "Quantifies over all trees and all randomness.", "anchors": ["src/lsss/zlsss.cpp:OpenABELSSS::shareSecret", "src/lsss/zlsss.cpp:OpenABELSSS::recoverCoefficients", "src/lsss/zlsss.cpp:LSSStestSecretRecovery"]}
{"id": "C27", "title": "recovery succeeds exactly when the policy is satisfied", "statement": "On a freshly parsed policy, recoverCoefficients and checkIfSatisfied return true exactly when the attribute list satisfies the boolean formula; on failure no coefficients are left; adding attributes never turns success into failure.", "quantifier": "every policy and attribute list", "why_tests_cant": "All trees times all lists.", "anchors": ["src/lsss/zlsss.cpp:iterativeScanTree", "src/lsss/zlsss.cpp:determineIfNodeShouldBeMarked", "src/lsss/zlsss.cpp:checkIfSatisfied", "src/lsss/zlsss.cpp:recoverCoefficients"]}
{"id": "C28", "title": "unauthorised shares reveal nothing about the secret", "statement": "For every attribute set that does not satisfy the policy and any two secrets, there is a bijection between the random tapes under which the shares belonging to the held attributes coincide; hence those shares are distributed identically for all secrets.", "quantifier": "every policy, unauthorised attribute set, pair of secrets and random tape (odd prime order)", "why_tests_cant": "An information-theoretic statement about distributions.", "anchors": ["src/lsss/zlsss.cpp:iterativeShareSecret", "src/lsss/zlsss.cpp:evaluatePolynomial"]}
{"id": "C29", "title": "recovery uses only held attributes, one branch per OR", "statement": "Every coefficient returned belongs to a leaf whose attribute is in the list; the set of leaves used satisfies the policy and is minimal (dropping any one of them no longer satisfies it).", "quantifier": "every policy and satisfying attribute list", "why_tests_cant": "All trees and lists.", "anchors": ["src/lsss/zlsss.cpp:determineIfNodeShouldBeMarked", "src/lsss/zlsss.cpp:iterativeCoefficientRecover"]}
{"id": "C30", "title": "every leaf keeps its own share", "statement": "For every policy whose attributes are in canonical form and contain no '%', the result of shareSecret has exactly one row per leaf, so no share is overwritten by another leaf's.", "quantifier": "every policy, any multiplicity of attributes", "why_tests_cant": "Label collisions are a property of all name combinations.", "anchors": ["src/lsss/zlsss.cpp:makeUniqueLabel", "src/lsss/zdriver.cpp:Driver::leaf_node"]}
{"id": "C31", "title": "gates with more than two children", "statement": "For trees built through the node API with AND gates of any arity, recovery reconstructs the secret.", "quantifier": "every tree with arbitrary fan-out", "why_tests_cant": "Arity is unbounded; the parser only produces two children so tests never reach it.", "anchors": ["src/lsss/zlsss.cpp:calculateCoefficient", "include/lsss/zpolicy.h:OpenABETreeNode::addSubnode"]}
{"id": "C32", "title": "checkIfSatisfied is repeatable and side-effect free", "statement": "With its default flag reset, checkIfSatisfied leaves the policy as it was, so any sequence of checks with any lists returns what each check would return on a fresh policy.", "quantifier": "every policy and every finite sequence of attribute lists", "why_tests_cant": "Histories of arbitrary length.", "anchors": ["src/lsss/zlsss.cpp:checkIfSatisfied", "src/lsss/zpolicy.cpp:resetFlags"]}
{"id": "C33", "title": "recoverCoefficients does not depend on earlier calls", "statement": "The outcome of recoverCoefficients on a policy object depends only on the policy and the attribute list, not on earlier recover or check calls on the same object.", "quantifier": "every policy and every call history", "why_tests_cant": "Histories.", "anchors": ["src/lsss/zlsss.cpp:performCoefficientRecovery", "src/lsss/zlsss.cpp:iterativeScanTree"]}
{"id": "C34", "title": "the satisfied-count guides to the cheapest key", "statement": "The number reported by checkIfSatisfied for a satisfied policy equals the number of leaves recovery will use.", "quantifier": "every policy and satisfying attribute list", "why_tests_cant": "All trees and lists.", "anchors": ["src/lsss/zlsss.cpp:checkIfSatisfied", "src/lsss/zlsss.cpp:determineIfNodeShouldBeMarked"]}
{"id": "C35", "title": "CP-ABE decryption inverts encryption", "statement": "For every policy and attribute list satisfying it, a key generated for the list decrypts a ciphertext encrypted under the policy to the original plaintext, for all randomness and whatever other calls are made on the context in between.", "quantifier": "every policy, attribute list, plaintext, all random choices, any bilinear group of odd prime order", "why_tests_cant": "All randomness and inputs.", "anchors": ["schemes/zcontextcpwaters.cpp:encryptKEM", "schemes/zcontextcpwaters.cpp:decryptKEM", "schemes/zcontextcpwaters.cpp:generateDecryptionKey", "src/abe/zcontextabe.cpp:encrypt"]}
{"id": "C36", "title": "CP-ABE decryption fails cleanly", "statement": "If the key's attributes do not satisfy the ciphertext policy, decryption reports an error code and yields an empty plaintext.", "quantifier": "every policy, unsatisfying list, ciphertext content", "why_tests_cant": "All failing combinations.", "anchors": ["schemes/zcontextcpwaters.cpp:decryptKEM", "src/abe/zcontextabe.cpp:decrypt"]}
{"id": "C37", "title": "KP-ABE decryption inverts encryption", "statement": "For every key policy and ciphertext attribute list satisfying it, decryption returns the plaintext, for all randomness and whatever other calls are made on the context in between.", "quantifier": "every policy, attribute list, plaintext, all random choices, any bilinear group of odd prime order", "why_tests_cant": "All randomness and inputs.", "anchors": ["schemes/zcontextkpgpsw.cpp:encryptKEM", "schemes/zcontextkpgpsw.cpp:decryptKEM", "schemes/zcontextkpgpsw.cpp:generateDecryptionKey"]}
{"id": "C38", "title": "KP-ABE decryption fails cleanly", "statement": "If the ciphertext attributes do not satisfy the key policy, decryption reports an error code and yields an empty plaintext.", "quantifier": "every policy, unsatisfying list, ciphertext content", "why_tests_cant": "All failing combinations.", "anchors": ["schemes/zcontextkpgpsw.cpp:decryptKEM", "src/abe/zcontextabe.cpp:decrypt"]}
{"id": "C39", "title": "the one-time mask never repeats within a message", "statement": "The mask XORed on the plaintext uses distinct hash inputs for every 32-byte block of one message.", "quantifier": "every message length", "why_tests_cant": "Only very long messages expose a counter wrap.", "anchors": ["src/abe/zpairing.cpp:OpenABEPairing::hashFromBytes", "src/abe/zcontextabe.cpp:encrypt"]}
{"id": "C40", "title": "container round trip", "statement": "Deserialising a serialised container restores the same component names with equal values, for every container that has at least one component, non-empty names, and holds non-zero exponents, group elements, byte strings, integers without an explicit width and parsed attribute lists; read into a container in use, it overwrites those names and keeps the others.", "quantifier": "every finite set of named components", "why_tests_cant": "Unbounded content and name sets.", "anchors": ["src/abe/zcontainer.cpp:serialize", "src/abe/zcontainer.cpp:deserialize", "src/abe/zcontainer.cpp:deserializeElement"]}
{"id": "C41", "title": "ciphertext export/load round trip", "statement": "loadFromBytes(exportToBytes(c)) restores scheme, uid and components for every ciphertext with a 16-byte uid and at least one component.", "quantifier": "every ciphertext", "why_tests_cant": "Unbounded content.", "anchors": ["src/abe/zciphertext.cpp:exportToBytes", "src/abe/zciphertext.cpp:loadFromBytes"]}
{"id": "C42", "title": "malformed ciphertexts and keys are rejected", "statement": "loadFromBytes / constructKeyFromBytes throws on every blob whose header is not 18 bytes (key: at least 18), whose version is newer than the library, or whose scheme is unknown; no other outcome than throwing or loading exists.", "quantifier": "every blob", "why_tests_cant": "All blobs.", "anchors": ["src/abe/zciphertext.cpp:loadFromBytes", "src/abe/zkeystore.cpp:constructKeyFromBytes"]}
{"id": "C43", "title": "key export/import round trip", "statement": "A key exported from a keystore and loaded again (under any name) has the same scheme, uid, id and components.", "quantifier": "every key with components", "why_tests_cant": "Unbounded content.", "anchors": ["src/abe/zkey.cpp:exportKeyToBytes", "src/abe/zkeystore.cpp:parseKeyHeader", "src/abe/zkeystore.cpp:constructKeyFromBytes"]}
{"id": "C44", "title": "looking up a component does not change the container", "statement": "getComponent on a missing name reports ELEMENT_NOT_FOUND and leaves the container exactly as it was, so later export is unaffected.", "quantifier": "every container, every name and every later operation", "why_tests_cant": "Histories with failing lookups.", "anchors": ["src/abe/zcontainer.cpp:getComponent", "src/abe/zcontainer.cpp:serialize"]}
{"id": "C45", "title": "container equality is content equality", "statement": "operator== on containers returns true exactly when both hold the same names with equal values.", "quantifier": "every pair of containers", "why_tests_cant": "All pairs.", "anchors": ["src/abe/zcontainer.cpp:operator=="]}
{"id": "C46", "title": "keystore returns the last key added", "statement": "After any sequence of addKey/deleteKey/lookups, getPublicKey/getSecretKey return the key last added under that name in that class and not deleted since, and null otherwise.", "quantifier": "every operation history", "why_tests_cant": "Histories of arbitrary length.", "anchors": ["src/abe/zkeystore.cpp:addKey", "src/abe/zkeystore.cpp:getKey", "src/abe/zkeystore.cpp:deleteKey", "src/abe/zkeystore.cpp:getPublicKey", "src/abe/zkeystore.cpp:getSecretKey"]}
{"id": "C47", "title": "checkSecretKey reports existing secret keys only", "statement": "checkSecretKey(name) is true exactly when a secret key of that name was added and not deleted.", "quantifier": "every operation history", "why_tests_cant": "Histories with failed lookups.", "anchors": ["src/abe/zkeystore.cpp:checkSecretKey", "src/abe/zkeystore.cpp:getSecretKey"]}
{"id": "C48", "title": "key manager isolates users", "statement": "getKeyCommand and searchKeyCommand for a user only ever return keys stored for that user, after any history of operations.", "quantifier": "every history, user and query", "why_tests_cant": "Histories.", "anchors": ["src/abe/zkeymgr.cpp:getKeyCommand", "src/abe/zkeymgr.cpp:searchKey", "src/abe/zkeymgr.cpp:filterKeys"]}
{"id": "C49", "title": "search finds a working key when one exists", "statement": "searchKeyCommand returns the identifier of a stored key of the user that satisfies the query input whenever one exists, a key of minimal reported cost when isEfficient is set, and the empty string when none exists (so the empty string means none, if no key was stored under it). It changes no stored key.", "quantifier": "every store content and query", "why_tests_cant": "All key sets.", "anchors": ["src/abe/zkeymgr.cpp:searchKey", "src/abe/zkeymgr.cpp:testAKey"]}
{"id": "C50", "title": "deleted keys are gone", "statement": "Identifiers returned by deleteKeyCommand are no longer retrievable or found by search.", "quantifier": "every history", "why_tests_cant": "Histories.", "anchors": ["src/abe/zkeymgr.cpp:deleteKeyCommand", "src/abe/zkeystore.cpp:deleteKey"]}
{"id": "C51", "title": "storing a key under a fresh prefix never destroys another key", "statement": "storeWithKeyPrefixCommand never removes or replaces an existing key of the same or another user.", "quantifier": "every history", "why_tests_cant": "Needs more than 20 keys or colliding prefixes.", "anchors": ["src/abe/zkeymgr.cpp:storeWithKeyPrefixCommand", "src/abe/zkeymgr.h:MAX_KEYS_PER_USER"]}
{"id": "C52", "title": "a failed store changes nothing", "statement": "storeWithKeyIDCommand that throws or returns false leaves all stored keys retrievable.", "quantifier": "every store content and every (possibly malformed) blob", "why_tests_cant": "Failure atomicity over all blobs.", "anchors": ["src/abe/zkeymgr.cpp:storeWithKeyIDCommand"]}
{"id": "C53", "title": "authenticated encryption handler round trip", "statement": "SymKeyEncHandler::decrypt(encrypt(m)) = m under the same key and authenticated data, for every non-empty plaintext and for the empty plaintext without authenticated data.", "quantifier": "every plaintext, key, authenticated data, IV", "why_tests_cant": "All plaintext lengths.", "anchors": ["src/abe/zsymcrypto.cpp:OpenABESymKeyHandleImpl::encrypt", "src/abe/zsymcrypto.cpp:OpenABESymKeyHandleImpl::decrypt"]}
{"id": "C54", "title": "no plaintext without authentication (one-shot)", "statement": "Decryption of a ciphertext that the AEAD does not accept never returns plaintext: it reports failure for every blob.", "quantifier": "every blob, key, authenticated data", "why_tests_cant": "All forgeries.", "anchors": ["src/abe/zsymkey.cpp:OpenABESymKeyAuthEnc::decrypt", "src/abe/zsymcrypto.cpp"]}
{"id": "C55", "title": "streaming decryption reports forged tags", "statement": "A stream decryption session through the context API reports an error from decryptFinalize whenever the tag does not verify.", "quantifier": "every session, every chunking, every tag", "why_tests_cant": "All forgeries and all chunkings.", "anchors": ["src/abe/zcontextske.cpp:decryptFinalize", "src/abe/zsymkey.cpp:OpenABESymKeyAuthEncStream::decryptFinalize"]}
{"id": "C56", "title": "streaming encryption is independent of chunking", "statement": "Encrypting the same bytes in any sequence of non-empty chunks gives the same ciphertext and tag, and decrypting with any other chunking gives back the bytes.", "quantifier": "every plaintext, every chunking of it for both directions", "why_tests_cant": "Unbounded number of chunkings.", "anchors": ["src/abe/zsymkey.cpp:OpenABESymKeyAuthEncStream"]}
{"id": "C57", "title": "stream calls out of order are reported", "statement": "Calling update or finalize without a preceding init returns an error and never produces output.", "quantifier": "every call sequence", "why_tests_cant": "All sequences of API calls.", "anchors": ["src/abe/zsymkey.cpp:OpenABESymKeyAuthEncStream"]}
{"id": "C58", "title": "symmetric key export/load round trip", "statement": "A symmetric key exported and loaded again has the same key bytes, through the key object and through the symmetric-key context.", "quantifier": "every key, id and uid", "why_tests_cant": "All contents.", "anchors": ["src/abe/zsymkey.cpp:OpenABESymKey::exportKeyToBytes", "src/abe/zsymkey.cpp:OpenABESymKey::loadKeyFromBytes", "src/abe/zcontextske.cpp:exportKey"]}
{"id": "C59", "title": "symmetric key equality compares key material", "statement": "Two symmetric keys compare equal exactly when their key bytes are equal.", "quantifier": "every pair of keys", "why_tests_cant": "All pairs.", "anchors": ["src/abe/zsymkey.cpp:operator=="]}
{"id": "C60", "title": "HKDF returns exactly the requested length and extends consistently", "statement": "ComputeHKDF returns exactly key_len bytes and, for the same inputs, a shorter request is a prefix of a longer one, up to 255 blocks.", "quantifier": "every key, salt, info and length up to 255*32", "why_tests_cant": "All lengths.", "anchors": ["src/abe/zkdf.cpp:ComputeHKDF"]}
{"id": "C61", "title": "scheme identifiers convert consistently", "statement": "OpenABE_getSchemeID accepts exactly the defined identifiers; converting a defined identifier to its name and back gives an identifier with the same name and key type.", "quantifier": "every byte value and every string", "why_tests_cant": "256 ids times all strings.", "anchors": ["utils/utils.cpp:OpenABE_getSchemeID", "utils/utils.cpp:OpenABE_convertSchemeIDToString", "utils/utils.cpp:OpenABE_convertStringToSchemeID"]}
{"id": "C62", "title": "attribute hashing keeps policy semantics", "statement": "Hashing the attributes of a policy and of an attribute list preserves satisfaction when no attribute (or hash) is a substring of another attribute, of a compared name or of a keyword in the text, and no name has an empty part between colons.", "quantifier": "every policy and attribute list, every injective hash", "why_tests_cant": "Textual replacement interacts with all names.", "anchors": ["src/lsss/hashattributes.cpp:hashPolicy", "src/lsss/hashattributes.cpp:hashAttributesList", "src/lsss/hashattributes.cpp:replaceAll"]}
{"id": "C63", "title": "attribute-list equality is set equality", "statement": "isEqual on attribute lists is true exactly when both contain the same attributes.", "quantifier": "every pair of lists", "why_tests_cant": "All pairs.", "anchors": ["src/lsss/zattributelist.cpp:isEqual"]}
{"id": "C64", "title": "copying a policy preserves its meaning", "statement": "A copy of a policy shares secrets with the same row labels and is satisfied by the same attribute lists as the original.", "quantifier": "every policy", "why_tests_cant": "All trees including duplicated attributes.", "anchors": ["src/lsss/zpolicy.cpp:OpenABETreeNode(copy)", "src/lsss/zpolicy.cpp:OpenABEPolicy(copy)"]}
{"id": "C65", "title": "integer serialisation round trip", "statement": "Deserialising the serialisation of any 32-bit integer restores its value; blobs shorter than 5 bytes throw.", "quantifier": "every 32-bit value", "why_tests_cant": "2^32 values.", "anchors": ["include/lsss/zinteger.h:serialize", "include/lsss/zinteger.h:deserialize"]}
{"id": "C66", "title": "operator+(std::string) concatenates", "statement": "Adding a std::string to a byte string with operator+ yields the concatenation.", "quantifier": "every byte string and every string", "why_tests_cant": "Only certain first characters reveal what is appended.", "anchors": ["include/lsss/zbytestring.h:operator+(std::string)"]}
{"id": "C67", "title": "one LSSS object can serve several policies", "statement": "Sharing a policy with an LSSS object that was used before gives the same rows as sharing it with a new object.", "quantifier": "every pair of policies, secret and random tape", "why_tests_cant": "The rows depend on the history of the object.", "anchors": ["src/lsss/zlsss.cpp:performSecretSharing", "src/lsss/zlsss.cpp:clearExistingResults"]}
{"id": "C68", "title": "secret sharing does not depend on assertions being enabled", "statement": "shareSecret has the same defined result in builds with and without assertions.", "quantifier": "every policy, secret and build type", "why_tests_cant": "Tests run one build type.", "anchors": ["src/lsss/zlsss.cpp:iterativeShareSecret"]}
{"id": "C69", "title": "keys derived by DeriveKey have the requested length and entropy", "statement": "DeriveKey returns keydataBitLen/8 bytes, each taken from a hash block computed with its own counter; inputs longer than the limit are refused.", "quantifier": "every secret, length, metadata and hash function of 32 bytes", "why_tests_cant": "All lengths and hash-length arguments; the blocks depend on a hash.", "anchors": ["src/abe/zkdf.cpp:DeriveKey", "include/abe/zkdf.h:OpenABEKDF"]}
{"id": "C70", "title": "component names keep attributes apart", "statement": "OpenABEHashKey gives distinct component names, of at most 16 bytes, to distinct attributes.", "quantifier": "every pair of attributes and every 32-byte hash", "why_tests_cant": "All attribute names, also those that look like digests.", "anchors": ["src/abe/zkdf.cpp:OpenABEHashKey", "schemes/zcontextcpwaters.cpp:encryptKEM", "schemes/zcontextkpgpsw.cpp:encryptKEM"]}
{"id": "C71", "title": "a loaded ciphertext can be exported again", "statement": "After loadFromBytes succeeds on a new ciphertext, exportToBytes succeeds and getComponent finds every name listed by getKeys.", "quantifier": "every blob the loader accepts", "why_tests_cant": "All accepted blobs, including ones no exporter writes.", "anchors": ["src/abe/zcontainer.cpp:deserializeElement", "src/abe/zcontainer.cpp:setComponent", "src/abe/zciphertext.cpp:loadFromBytes", "include/lsss/zpolicy.h:clone"]}
{"id": "C72", "title": "everything that can be put in a container survives export and load", "statement": "Whatever setComponent accepts under whatever name, and whatever uid the constructor accepts, is restored by export followed by load.", "quantifier": "every object class, name, uid and number of components", "why_tests_cant": "The failing cases are corner values of each class.", "anchors": ["src/abe/zcontainer.cpp:setComponent", "src/abe/zcontainer.cpp:serialize", "src/abe/zciphertext.cpp:OpenABECiphertext", "include/lsss/zinteger.h:serialize"]}
{"id": "C73", "title": "deleting a key wipes its material", "statement": "After deleteKey (or clearing the store) the key material of the key object is no longer readable through pointers obtained before.", "quantifier": "every key and store content", "why_tests_cant": "Memory contents after deletion are not observable through the API under test.", "anchors": ["src/abe/zkeystore.cpp:deleteKey", "src/abe/zkey.cpp:zeroize"]}
{"id": "C74", "title": "storing a key is always reported, never a crash", "statement": "storeWithKeyIDCommand and storeWithKeyPrefixCommand return or throw for every user name, identifier and blob; they neither end the process nor dereference null.", "quantifier": "every user, identifier and blob, in every state of the manager", "why_tests_cant": "Arbitrary blobs.", "anchors": ["src/abe/zkeymgr.cpp:storeWithKeyIDCommand", "utils/utils.cpp:getFunctionInput"]}
{"id": "C75", "title": "a stored key can be retrieved", "statement": "A decryption key exported by the library is accepted by storeWithKeyIDCommand unless the user already has a key for the same input under another identifier; getKeyCommand then returns exactly that blob with the text of its policy or attributes, until a command writes under the same identifier.", "quantifier": "every key, user, identifier and history", "why_tests_cant": "Depends on the parsers inverting the printers for every input.", "anchors": ["src/abe/zkeymgr.cpp:storeWithKeyIDCommand", "src/abe/zkeymgr.cpp:getKeyCommand", "utils/utils.cpp:getFunctionInput"]}
{"id": "C76", "title": "a stream cipher object can be used for several messages", "statement": "Encrypting a message with a stream object that has already finished another one gives the tag a new object would give for the same associated data.", "quantifier": "every key, associated data, IV and pair of messages", "why_tests_cant": "Depends on the history of the object.", "anchors": ["src/abe/zsymkey.cpp:OpenABESymKeyAuthEncStream::initAddAuthData", "src/abe/zsymkey.cpp:OpenABESymKeyAuthEncStream::encryptFinalize"]}
{"id": "C77", "title": "stream decryption accepts only full tags", "statement": "decryptFinalize of a stream object returns success only for the complete 16-byte tag.", "quantifier": "every key, IV, ciphertext and tag of any length", "why_tests_cant": "All tag lengths and values.", "anchors": ["src/abe/zsymkey.cpp:OpenABESymKeyAuthEncStream::decryptInit", "src/abe/zsymkey.cpp:OpenABESymKeyAuthEncStream::decryptFinalize"]}
{"id": "C78", "title": "every key a handler accepts can be used", "statement": "A SymKeyEncHandler or symmetric key handle that was constructed without error encrypts without undefined behaviour.", "quantifier": "every key accepted by a constructor, every plaintext", "why_tests_cant": "The out-of-bounds read is invisible to a functional test.", "anchors": ["src/abe/zsymcrypto.cpp:SymKeyEncHandler", "src/abe/zsymkey.cpp:setSymmetricKey", "src/abe/zsymkey.cpp:OpenABESymKeyAuthEnc::encrypt"]}
{"id": "C79", "title": "starting a stream session twice is reported", "statement": "A second encryptInit or decryptInit on a stream object whose session is open returns an error.", "quantifier": "every stream object state and argument", "why_tests_cant": "All call sequences.", "anchors": ["src/abe/zsymkey.cpp:OpenABESymKeyAuthEncStream::encryptInit", "src/abe/zsymkey.cpp:OpenABESymKeyAuthEncStream::decryptInit"]}
{"id": "C80", "title": "symmetric key handle round trip", "statement": "OpenABESymKeyHandle::decrypt restores every plaintext that encrypt of a handle with the same key and authenticated data was given.", "quantifier": "every plaintext, key, authenticated data, IV", "why_tests_cant": "All plaintext lengths, including zero.", "anchors": ["src/abe/zsymcrypto.cpp:OpenABESymKeyHandleImpl::encrypt", "src/abe/zsymcrypto.cpp:OpenABESymKeyHandleImpl::decrypt"]}
{"id": "C81", "title": "loading a malformed symmetric key is reported", "statement": "OpenABEContextSKE::loadPrivateParams returns an error for every blob that is not an exported symmetric key.", "quantifier": "every blob", "why_tests_cant": "All blobs, including the empty one.", "anchors": ["src/abe/zcontextske.cpp:loadPrivateParams", "src/abe/zsymkey.cpp:OpenABESymKey::loadKeyFromBytes"]}
{"id": "C82", "title": "streams of any length can be finished", "statement": "After any number of successful updates encryptFinalize returns the tag.", "quantifier": "every total length", "why_tests_cant": "Needs more than 4 GiB of data.", "anchors": ["src/abe/zsymkey.cpp:OpenABESymKeyAuthEncStream::encryptFinalize", "src/abe/zsymkey.cpp:OpenABESymKeyAuthEncStream::encryptUpdate"]}
{"id": "C83", "title": "the empty plaintext survives with authenticated data", "statement": "SymKeyEncHandler::decrypt restores the empty plaintext encrypted under the same key and authenticated data.", "quantifier": "every key, IV and authenticated data", "why_tests_cant": "All authenticated data.", "anchors": ["src/abe/zsymcrypto.cpp:SymKeyEncHandler::decrypt"]}
{"id": "C84", "title": "finishing an encryption yields a tag", "statement": "When encryptFinalize of the symmetric-key context reports success it has returned a 16-byte tag.", "quantifier": "every session, also one without data", "why_tests_cant": "All call sequences.", "anchors": ["src/abe/zcontextske.cpp:encryptFinalize", "src/abe/zsymkey.cpp:OpenABESymKeyAuthEncStream::encryptFinalize"]}
{"id": "C85", "title": "authenticated data binds handlers", "statement": "A handler whose own authenticated data differs from the one used for encryption refuses the ciphertext; a handler without any takes the data carried by the ciphertext and decrypts.", "quantifier": "every key, pair of authenticated data, plaintext, IV", "why_tests_cant": "All pairs of authenticated data.", "anchors": ["src/abe/zsymcrypto.cpp:SymKeyEncHandler::decrypt", "src/abe/zsymcrypto.cpp:SymKeyEncHandler::setAuthData"]}
{"id": "C86", "title": "symmetric-key context round trip", "statement": "What a session of the symmetric-key context encrypts is restored by a later decryption session of the same context under the same identifier, whatever the chunkings of both.", "quantifier": "every context state, key, IV, plaintext under 4 GiB and pair of chunkings", "why_tests_cant": "Unbounded chunkings and states.", "anchors": ["src/abe/zcontextske.cpp"]}
{"id": "C87", "title": "encryption and decryption sessions do not interfere", "statement": "The outputs and codes of the calls of an open encryption (decryption) session do not depend on any other calls made on the same context in between, including key deletion and the other session.", "quantifier": "every interleaving of calls", "why_tests_cant": "Unbounded number of interleavings.", "anchors": ["src/abe/zcontextske.cpp"]}
{"id": "C88", "title": "identifiers name the key last generated or loaded", "statement": "In every history a session opened under an identifier uses the key most recently generated or loaded under it and not deleted since; without one, init and export report an error.", "quantifier": "every history of calls on the symmetric-key context", "why_tests_cant": "Unbounded histories.", "anchors": ["src/abe/zcontextske.cpp", "src/abe/zkeystore.cpp"]}
{"id": "C89", "title": "key generation uses free identifiers and only those", "statement": "keygen of the symmetric-key context never replaces an existing key, and succeeds under every identifier that has no key.", "quantifier": "every context state, identifier and random key", "why_tests_cant": "Depends on the history of lookups.", "anchors": ["src/abe/zcontextske.cpp:keygen", "src/abe/zkeystore.cpp:getSecretKey"]}
{"id": "C90", "title": "generating parameters never touches existing keys", "statement": "generateParams returns 0 and stores both keys exactly when neither name has a key; otherwise it returns the invalid-id code; every key stored before is still stored, with the same content.", "quantifier": "every context state and pair of names", "why_tests_cant": "All context states.", "anchors": ["schemes/zcontextcpwaters.cpp:generateParams", "schemes/zcontextkpgpsw.cpp:generateParams", "src/abe/zkeystore.cpp:validateNewParamsID"]}
{"id": "C91", "title": "keys survive unrelated calls", "statement": "A key of a context keeps its header and components through every history of calls on the context that neither generates, loads nor deletes a key of its name, whether those calls succeed or fail; in particular generating user keys never harms the master key.", "quantifier": "every history of calls, key and name", "why_tests_cant": "Unbounded histories.", "anchors": ["src/abe/zcontextabe.cpp", "src/abe/zkeystore.cpp:addKey"]}
{"id": "C92", "title": "missing keys and wrong inputs are reported", "statement": "With no key of the given name, or with an input of the wrong kind or null, encrypt, decrypt and generateDecryptionKey return the documented code and decrypt leaves the plaintext empty.", "quantifier": "every context state, name, input and ciphertext", "why_tests_cant": "All states and inputs.", "anchors": ["src/abe/zcontextabe.cpp", "schemes/zcontextcpwaters.cpp", "schemes/zcontextkpgpsw.cpp"]}
{"id": "C93", "title": "a hostile ciphertext is refused, not executed", "statement": "Decrypting a ciphertext with arbitrary components (malformed policy text, components of other types, missing components) returns an error code or a wrong plaintext; it never crashes.", "quantifier": "every ciphertext content", "why_tests_cant": "Unbounded set of ciphertexts.", "anchors": ["schemes/zcontextcpwaters.cpp:decryptKEM", "schemes/zcontextkpgpsw.cpp:decryptKEM", "src/lsss/zlsss.cpp:recoverCoefficients"]}
{"id": "C94", "title": "a failed decryption leaves the ciphertext usable", "statement": "After a decryption that returned an error the ciphertext object has the same content and can be exported.", "quantifier": "every ciphertext and key", "why_tests_cant": "All ciphertext contents.", "anchors": ["src/abe/zcontextabe.cpp:decrypt", "src/abe/zcontainer.cpp:getComponent"]}
{"id": "C95", "title": "keys and ciphertexts can be used in other processes", "statement": "Public parameters, user keys and ciphertexts exported by one context and loaded by others, under any names, work as in one context: all exports and loads succeed and decrypt returns the plaintext exactly when the policy holds of the list.", "quantifier": "every policy text, list text, plaintext, scheme, randomness and history of the three contexts", "why_tests_cant": "All texts, keys and histories; three processes with nothing else in common.", "anchors": ["src/abe/zcontextabe.cpp:exportKey", "src/abe/zcontextabe.cpp:loadKey", "src/abe/zciphertext.cpp:exportToBytes", "src/abe/zciphertext.cpp:loadFromBytes"]}
{"id": "C96", "title": "exports of a key do not change", "statement": "Exporting public parameters or a user key at any later time yields the same bytes, whatever calls were made in between, as long as no key of that name is generated, loaded or deleted.", "quantifier": "every history of calls on a context", "why_tests_cant": "Unbounded histories, including failing calls.", "anchors": ["src/abe/zcontextabe.cpp:exportKey", "src/abe/zcontainer.cpp:getComponent"]}
{"id": "C97", "title": "components: the last write wins", "statement": "Over any sequence of setComponent, getComponent and deleteComponent calls, getComponent returns the object last set under the name and not deleted since, or reports that there is none; deleteComponent returns 0 exactly when there was one.", "quantifier": "every sequence of calls, name and object", "why_tests_cant": "Unbounded histories.", "anchors": ["src/abe/zcontainer.cpp:setComponent", "src/abe/zcontainer.cpp:getComponent", "src/abe/zcontainer.cpp:deleteComponent"]}
{"id": "C98", "title": "the list of active users is exact", "statement": "After any history of key manager calls, getActiveUsers lists exactly the users registered by setPassphrase and not deleted since, each with the program of its last registration.", "quantifier": "every history of key manager calls and user name", "why_tests_cant": "Unbounded histories; stores, searches, deletions and registrations interleaved in any order.", "anchors": ["src/abe/zkeymgr.cpp:setPassphrase", "src/abe/zkeymgr.cpp:getActiveUsers", "src/abe/zkeymgr.cpp:deleteKeyCommand"]}
{"id": "C99", "title": "the text of an attribute list identifies it", "statement": "Two attribute lists made from texts have the same toString exactly when they have the same attributes in the same order; the text is the attributes between bars.", "quantifier": "every pair of attribute list texts", "why_tests_cant": "All texts, of any length.", "anchors": ["src/lsss/zattributelist.cpp:toString", "src/lsss/zattributelist.cpp:createAttributeList"]}
{"id": "C100", "title": "users who put their keys together gain nothing", "statement": "If the policy holds of none of the users' attribute lists (KP: none of the users' policies holds of the ciphertext's list), no fixed combination of pairings and powers of all their keys, the public parameters, the ciphertext and hashed points yields the group element the ciphertext key is derived from for every choice of the random exponents; if one user is authorised, such a combination always does.", "quantifier": "every number of users, list, policy, plaintext, and combination of pairings; lawful pairing groups", "why_tests_cant": "All coalitions and all computations of this kind; a missing random exponent is invisible to round-trip tests.", "anchors": ["schemes/zcontextcpwaters.cpp:generateDecryptionKey", "schemes/zcontextcpwaters.cpp:encryptKEM", "schemes/zcontextkpgpsw.cpp:generateDecryptionKey", "schemes/zcontextkpgpsw.cpp:encryptKEM"]}
{"id": "C101", "title": "the key manager finds a key that opens the ciphertext", "statement": "Let the keys a user has in the key manager be exported keys of one authority. For a ciphertext sent under that authority's parameters, searching with what getFunctionInput says of the loaded ciphertext names a key of the user, and loading that key decrypts the ciphertext, whenever any of the user's keys decrypts it; otherwise the answer is the empty string.", "quantifier": "every history of key manager commands, of the authority's, sender's and receiver's contexts, key inputs, ciphertext input and plaintext; both schemes", "why_tests_cant": "Composes parsing, key generation, export, the manager's search and decryption; all inputs and histories.", "anchors": ["utils/utils.cpp:getFunctionInput", "src/abe/zkeymgr.cpp:searchKeyCommand", "src/abe/zkeymgr.cpp:getKeyCommand", "src/abe/zcontextabe.cpp:loadKey", "src/abe/zcontextabe.cpp:decrypt"]}
{"id": "C102", "title": "threads may share a key manager", "statement": "Calls made by several threads on one key manager never race, never deadlock, and return the answers they would give made one after the other in the order in which they returned.", "quantifier": "every number of threads, sequence of calls of each thread, schedule and initial content", "why_tests_cant": "Schedules cannot be enumerated; a missing lock shows only under a rare interleaving.", "anchors": ["src/abe/zkeymgr.cpp:storeWithKeyIDCommand", "src/abe/zkeymgr.cpp:storeWithKeyPrefixCommand", "src/abe/zkeymgr.cpp:getKeyCommand", "src/abe/zkeymgr.cpp:searchKeyCommand", "src/abe/zkeymgr.cpp:deleteKeyCommand", "src/abe/zkeymgr.cpp:setPassphrase", "src/abe/zkeymgr.cpp:getActiveUsers", "include/abe/zkeymgr.h:ks_lock_"]}
{"id": "C103", "title": "starting and stopping the library", "statement": "After any history of calls by any threads, InitializeOpenABE throws exactly when the library is on, creating a pairing throws exactly when it is off, and no other call throws; a thread that prepared itself with OpenABEStateContext can create pairings whenever the library is on, and its per-thread state is released when that object goes.", "quantifier": "every history of start, stop, pairing and per-thread calls by any number of threads, and every outcome of the RELIC start-up calls", "why_tests_cant": "All histories and interleavings of threads; failures of RELIC.", "anchors": ["src/abe/zabe.cpp:InitializeOpenABE", "src/abe/zabe.cpp:ShutdownOpenABE", "include/abe_lsss.h:OpenABEStateContext", "src/abe/zpairing.cpp:zMathInitLibrary", "src/abe/zpairing.cpp:OpenABEPairing"]}
{"id": "C104", "title": "the plaintext enters the ciphertext only under the pad", "statement": "For two plaintexts of one length encrypted in the same situation, the return code, the context, the header and all components but one are equal; the remaining one is the plaintext XORed with a pad that is the same for both and does not repeat.", "quantifier": "every scheme, context state, input, randomness and pair of plaintexts", "why_tests_cant": "All plaintexts and states; leaks through lengths, labels or extra components are invisible to round-trip tests.", "anchors": ["src/abe/zcontextabe.cpp:encrypt", "src/abe/zpairing.cpp:hashFromBytes"]}
{"id": "C105", "title": "altered ciphertexts are detected", "statement": "A ciphertext whose header or body was changed on the way is refused by decrypt.", "quantifier": "every ciphertext, alteration, key and context state", "why_tests_cant": "All alterations.", "anchors": ["src/abe/zcontextabe.cpp:decrypt", "schemes/zcontextcpwaters.cpp:decryptKEM", "schemes/zcontextkpgpsw.cpp:decryptKEM"]}
{"id": "C106", "title": "random choices are never used twice", "statement": "What a call returns and leaves behind depends only on the random choices drawn during that call. No later call draws them again, whatever is called in between. The secret exponent of a ciphertext and the exponents of a user key are choices of the call that made them, and two ciphertexts never share one.", "quantifier": "every sequence of calls, every source of randomness, both schemes", "why_tests_cant": "All histories and all random sources.", "anchors": ["schemes/zcontextcpwaters.cpp:encryptKEM", "schemes/zcontextkpgpsw.cpp:encryptKEM", "schemes/zcontextcpwaters.cpp:generateDecryptionKey", "schemes/zcontextkpgpsw.cpp:generateDecryptionKey", "src/abe/zpairing.cpp:randomZP", "src/lsss/zlsss.cpp:shareSecret"]}
{"id": "C107", "title": "public-key messages arrive", "statement": "With a key encapsulation that agrees on a 32-byte key, what encrypt was given is what decrypt returns with code 0, also after the ciphertext was exported and loaded. An empty plaintext, an unknown sender and a failing encapsulation are reported with their codes.", "quantifier": "every encapsulation, message, state of both contexts", "why_tests_cant": "All messages, all subclasses of OpenABEContextPKE.", "anchors": ["src/abe/zcontextpke.cpp:OpenABEContextSchemePKE::encrypt", "src/abe/zcontextpke.cpp:OpenABEContextSchemePKE::decrypt"]}
{"id": "C108", "title": "public-key messages are authenticated", "statement": "decrypt returns a plaintext only if the tag of the ciphertext fits its header, vector and body under the encapsulated key; otherwise it returns an error code and leaves the caller's string untouched. Altered messages are accepted only if the tag function has a collision.", "quantifier": "every encapsulation, ciphertext, alteration and state", "why_tests_cant": "All alterations.", "anchors": ["src/abe/zcontextpke.cpp:OpenABEContextSchemePKE::decrypt", "src/abe/zsymkey.cpp:OpenABESymKeyAuthEnc::decrypt"]}
{"id": "C109", "title": "public-key contexts load only valid keys of their scheme", "statement": "loadPublicKey and loadPrivateKey change the key store only when they return 0, and then only under the given name; the key there is of the scheme and passed validation. Valid exported keys are loaded. No blob crashes the process.", "quantifier": "every blob, name, store and encapsulation", "why_tests_cant": "All blobs.", "anchors": ["src/abe/zcontextpke.cpp:loadPublicKey", "src/abe/zcontextpke.cpp:loadPrivateKey", "include/abe/zcontext.h:OpenABEContext"]}
{"id": "C110", "title": "parsing and policies never touch freed memory", "statement": "Parsing any text as a policy or an attribute list, whether it is accepted, refused or ends in an exception, and then using, copying, assigning and destroying the policies in any order never reads or deletes an object that is already deleted or was never made. Every policy has a tree of its own that stays until it is destroyed.", "quantifier": "every sequence of parses, uses, copies, assignments and destructions, every text", "why_tests_cant": "All texts and histories; a use after free or double free is often silent in a test.", "anchors": ["include/lsss/zparser.yy", "src/lsss/zparser.tab.cc:yy_destroy_", "src/lsss/zdriver.cpp", "src/lsss/zpolicy.cpp:~OpenABETreeNode", "src/lsss/zpolicy.cpp:createPolicyTree", "src/lsss/zobject.cpp:deRef"]}
{"id": "C111", "title": "parsing and policies give their memory back", "statement": "When every policy of the program has been destroyed, nothing that was allocated for parsing or for the policies remains.", "quantifier": "every sequence of parses, uses, copies, assignments and destructions, every text", "why_tests_cant": "All histories; leaks do not change any result.", "anchors": ["src/lsss/zpolicy.cpp:~OpenABETreeNode", "src/lsss/zobject.cpp:deRef", "src/lsss/zscanner.ll"]}
{"id": "C112", "title": "components of keys and ciphertexts are never used after they are gone", "statement": "In any program that sets, gets, deletes, serializes, loads and destroys containers without copying them, no component is read or deleted after it was deleted. Each container behaves as if it held values of its own, and a pointer from getComponent keeps giving the value it was obtained for until its container is destroyed, even if the component is replaced or deleted meanwhile.", "quantifier": "every such program, any number of containers and pointers, every blob loaded", "why_tests_cant": "All histories of calls and pointers.", "anchors": ["src/abe/zcontainer.cpp:setComponent", "src/abe/zcontainer.cpp:getComponent", "src/abe/zcontainer.cpp:~OpenABEContainer"]}
{"id": "C113", "title": "containers give their memory back", "statement": "When every container has been destroyed no component remains in memory, and a deleted component is gone at once.", "quantifier": "every program as in the previous property", "why_tests_cant": "All histories; leaks, and secrets left behind, do not change any result.", "anchors": ["src/abe/zcontainer.cpp:setComponent", "src/abe/zcontainer.cpp:deleteComponent", "src/abe/zcontainer.cpp:~OpenABEContainer"]}
{"id": "C114", "title": "containers can be copied", "statement": "A program may copy and assign keys and ciphertexts like values: no component is read or deleted after it was deleted.", "quantifier": "every program that also copies and assigns containers", "why_tests_cant": "All histories.", "anchors": ["include/abe/zcontainer.h:OpenABEContainer"]}
{"id": "C115", "title": "arithmetic on field elements is arithmetic modulo the order", "statement": "Any expression built from ZP variables, 32-bit constants, +, -, *, /, unary minus, power, multInverse and setFrom yields the one value the expression has in the field of the group order, reduced and carrying that order; it ends the process or is undefined exactly when it has no value because of a division by zero. The same holds for any sequence of assignments. A random element is below the order and any element can come out.", "quantifier": "every prime order of at least 32 bits, every expression, program and contents of the variables", "why_tests_cant": "All expressions and values.", "anchors": ["src/lsss/zelement_bp.cpp:ZP", "include/lsss/zelement.h"]}
{"id": "C116", "title": "comparisons of field elements are consistent", "statement": "<, <=, >, >=, == and != form a total order; == on elements of the field holds exactly when they are equal in the field, in particular it decides whether two expressions have the same value. Shifts, and elements made from text or bytes, are elements of the field.", "quantifier": "every pair or triple of elements, every pair of expressions, every shift", "why_tests_cant": "All values.", "anchors": ["src/lsss/zelement_bp.cpp:operator<", "src/lsss/zelement_bp.cpp:operator==", "src/lsss/zelement_bp.cpp:operator<<"]}
{"id": "C117", "title": "the group operators do what their names say", "statement": "Expressions built from elements of G1, G2 and GT with +, -, *, /, inverse, exp and scalars from ZP have the value the same expression has in the group; scalar arithmetic in ZP carries over to the elements.", "quantifier": "every group of prime order, every expression and elements", "why_tests_cant": "All elements and expressions.", "anchors": ["src/lsss/zelement_bp.cpp:G1", "src/lsss/zelement_bp.cpp:G2", "src/lsss/zelement_bp.cpp:GT"]}
{"id": "C118", "title": "point compression can be switched at any time", "statement": "What was serialized with one setting of the compression flag is read back with any setting; values other than 0 and 1 are ignored.", "quantifier": "every container, both settings at writing and at reading", "why_tests_cant": "All contents.", "anchors": ["src/lsss/zelement_bp.cpp:set_compression_flag", "src/lsss/zelement_bp.cpp:G1::deserialize", "src/lsss/zelement_bp.cpp:G2::deserialize"]}
{"id": "C119", "title": "the size reported for a group element is the size of its serialization", "statement": "getSizeInBytes returns the number of bytes serialize writes.", "quantifier": "every element of G1, G2 and GT and every encoding of the curve library", "why_tests_cant": "All elements and curves.", "anchors": ["src/lsss/zelement_bp.cpp:getSizeInBytes"]}
{"id": "C120", "title": "an attribute list can be built one attribute at a time", "statement": "A list made with the constructor from strings, or with addAttribute, holds exactly what its attributes stand for and answers matchAttribute as the list made from the joined text does; an attribute that cannot be understood is reported.", "quantifier": "every list of attributes (names, numbers with and without width, dates), every further string", "why_tests_cant": "All lists of strings.", "anchors": ["src/lsss/zattributelist.cpp:OpenABEAttributeList", "src/lsss/zattributelist.cpp:addAttribute", "src/lsss/zattributelist.cpp:matchAttribute"]}
{"id": "C121", "title": "a built attribute list can be serialized and copied", "statement": "A list built attribute by attribute grants the same attributes after it was serialized and read back, and so does a copy made with copyFunctionInput; a policy can be copied the same way.", "quantifier": "every list of strings, every policy", "why_tests_cant": "All strings, also those no test author thinks of.", "anchors": ["src/lsss/zattributelist.cpp:toCompactString", "src/lsss/zattributelist.cpp:serialize", "src/lsss/zfunctioninput.cpp:copyFunctionInput"]}
{"id": "C122", "title": "no part of a key stream is used twice, whatever objects share a key", "statement": "In a program that uses any number of symmetric key handles, handlers and streaming contexts, under equal or different keys, no byte of key stream (nonce and position) covers two bytes of plaintext, as long as the random source does not repeat a draw; the same message sealed twice gives different texts.", "quantifier": "every program of uses of any number of objects, every plaintext, every random source without repetition in the range used", "why_tests_cant": "All programs over all objects; a test sees some nonces.", "anchors": ["src/abe/zsymcrypto.cpp:OpenABESymKeyHandle", "src/abe/zsymcrypto.cpp:SymKeyEncHandler", "src/abe/zcontextske.cpp:encryptInit", "src/abe/zcontextske.cpp:encryptUpdate"]}
{"id": "C123", "title": "a symmetric key can be taken out of its handle and used elsewhere", "statement": "A handle rebuilt from exportRawKey reads what the first handle wrote and writes what the first would write; exportKey gives 32 bytes that depend on the key alone and are themselves usable as a key.", "quantifier": "every key, message and associated data", "why_tests_cant": "All keys and messages.", "anchors": ["src/abe/zsymcrypto.cpp:exportRawKey", "src/abe/zsymcrypto.cpp:exportKey"]}
{"id": "C124", "title": "many parties and authorities: everyone is told what a world without cryptography would tell them", "statement": "Parties with contexts of their own found authorities, issue user keys, export and load keys any number of times, encrypt, hand over ciphertexts as objects or bytes, decrypt and delete keys, in any order. Every call answers what a table of names would answer: decryption gives the plaintext exactly if the key comes from the authority of the ciphertext and the policy holds of the attributes, the decryption error if it does not hold, the error for a missing key if the name was never issued, loaded or has been deleted; what one party does never shows up in the answers of another.", "quantifier": "every number of parties and authorities, every sequence of calls, all names, policies, attribute lists and plaintexts, both schemes, every lawful pairing and random source", "why_tests_cant": "All interleavings of all calls of any number of parties.", "anchors": ["schemes/zcontextcpwaters.cpp", "schemes/zcontextkpgpsw.cpp", "src/abe/zcontextabe.cpp", "src/abe/zkeystore.cpp", "src/abe/zkey.cpp", "src/abe/zciphertext.cpp"]}
{"id": "C125", "title": "every error code has a text of its own", "statement": "OpenABE_errorToString gives each declared error code its own non-empty text, different from the text for unknown codes, and the text for unknown codes to everything else.", "quantifier": "every integer and every pair of declared codes", "why_tests_cant": "All codes, including those later calls may return.", "anchors": ["src/abe/zerror.cpp:OpenABE_errorToString", "include/abe/zerror.h"]}
{"id": "C126", "title": "a context asked for by identifier is one of that scheme", "statement": "OpenABE_createContextABESchemeCPA makes a context exactly for the identifiers of the two schemes; what its setup makes is marked with that identifier and is read by every context of the same identifier and refused by those of the other.", "quantifier": "every identifier, every pair of contexts, every lawful pairing and random source", "why_tests_cant": "All identifiers and key contents.", "anchors": ["utils/abecontext.cpp:OpenABE_createContextABESchemeCPA", "src/abe/zkey.cpp:loadKeyFromBytes"]}
{"id": "C127", "title": "secrets are wiped when a call is done", "statement": "After encrypt, decrypt and the symmetric operations no memory that the library has released still holds the session element, the key, the pad, or what a rejected ciphertext decrypts to.", "quantifier": "every message, session element, key and vector growth policy", "why_tests_cant": "Freed memory is not observable through the API; all contents and allocation policies.", "anchors": ["src/abe/zsymkey.cpp:hashToSymmetricKey", "src/abe/zpairing.cpp:hashFromBytes", "include/lsss/zbytestring.h:zeroize", "src/abe/zcontextabe.cpp:encrypt", "src/abe/zcontextabe.cpp:decrypt", "src/abe/zsymkey.cpp:decrypt", "src/abe/zsymcrypto.cpp:~OpenABESymKeyHandle"]}
{"id": "C128", "title": "calls give back the memory they took", "statement": "A program can encrypt and decrypt any number of times: each call frees what it allocated.", "quantifier": "every message, session element and vector growth policy", "why_tests_cant": "All call counts.", "anchors": ["src/abe/zsymkey.cpp:hashToSymmetricKey", "src/lsss/zelement_bp.cpp:GT::hashToBytes"]}
{"id": "C129", "title": "the stack a call needs does not depend on the message", "statement": "encrypt and decrypt, the encryption streams and key derivation work for every message or length that fits in memory: the stack they need is bounded whatever its length.", "quantifier": "every message and every bound", "why_tests_cant": "All lengths; a test tries a few small ones.", "anchors": ["src/abe/zpairing.cpp:hashFromBytes", "src/abe/zcontextabe.cpp:encrypt", "src/abe/zcontextabe.cpp:decrypt", "src/abe/zkdf.cpp:OpenABEKDF::DeriveKey", "src/abe/zsymkey.cpp:OpenABESymKeyAuthEncStream::encryptUpdate", "src/abe/zsymkey.cpp:OpenABESymKeyAuthEncStream::decryptUpdate"]}
{"id": "C130", "title": "short texts make small policies and attribute lists", "statement": "A policy text that is accepted gives a tree with at most 32 leaves for every three characters and one gate fewer than leaves; an attribute list has at most 32 attributes for every three characters. No text of any form makes them larger, and both bounds are reached.", "quantifier": "every text", "why_tests_cant": "All texts; only some are large.", "anchors": ["src/lsss/zdriver.cpp", "src/lsss/zparser.tab.cc", "src/lsss/zpolicy.cpp:createPolicyTree", "src/lsss/zattributelist.cpp:createAttributeList"]}
{"id": "C131", "title": "the shape of a ciphertext or key tells the policy or attributes and the message length, and nothing else", "statement": "Apart from the values of group elements and of the sealed bytes, everything in a ciphertext (header, names, kinds and order of the parts, lengths) is determined by the policy or attribute list and the length of the message; so is the number of exported bytes. Messages of one length cannot be told apart by shape, whichever keys, curve and random choices were used. The same holds of user keys and their policy or attributes.", "quantifier": "every policy or attribute list, message, state, pairing library and random source, both schemes", "why_tests_cant": "All messages and random choices: a test compares some.", "anchors": ["schemes/zcontextcpwaters.cpp:encryptKEM", "schemes/zcontextkpgpsw.cpp:encryptKEM", "src/abe/zcontextabe.cpp:encrypt", "src/abe/zcontainer.cpp:serialize", "src/abe/zciphertext.cpp:exportToBytes", "src/abe/zkey.cpp:exportKeyToBytes"]}
{"id": "C132", "title": "ciphertexts are as large as they must be", "statement": "A ciphertext for a policy has two parts per leaf and three more, one for attributes has one part per attribute and three more; its exported bytes grow at most linearly with the text of the policy and the message.", "quantifier": "every policy, attribute list and message, every lawful pairing and random source", "why_tests_cant": "All policies and messages.", "anchors": ["schemes/zcontextcpwaters.cpp:encryptKEM", "schemes/zcontextkpgpsw.cpp:encryptKEM", "src/abe/zciphertext.cpp:exportToBytes"]}
{"id": "C133", "title": "threads may encrypt and decrypt with one context at once", "statement": "Any number of threads share a context, each with its own random choices, and call encrypt, decrypt, exportKey and checkSecretKey in any interleaving of their accesses to the key store. If each thread alone would leave the store as it is (for encrypt and decrypt: gets none of the codes 5, 8 and 18), then no two threads ever race, the store stays as it is, and every thread is told exactly what it would be told alone.", "quantifier": "every number of threads, every sequence of calls in each, every schedule of their accesses, every store, both schemes", "why_tests_cant": "All interleavings; a test sees a few.", "anchors": ["src/abe/zkeystore.cpp:getSecretKey", "src/abe/zkeystore.cpp:getPublicKey", "src/abe/zcontainer.cpp:getComponent", "src/abe/zcontextabe.cpp:encrypt", "src/abe/zcontextabe.cpp:decrypt"]}
{"id": "C134", "title": "other uses of one context by several threads are safe too", "statement": "Threads may also look for keys that are not there, export user keys, and make or delete keys while others encrypt and decrypt, without races; and parameters made at the same time under the same names are made once.", "quantifier": "every number of threads, every schedule of their accesses, both schemes", "why_tests_cant": "All interleavings.", "anchors": ["src/abe/zkeystore.cpp:getKey", "src/abe/zkeystore.cpp:addKey", "src/abe/zkeystore.cpp:deleteKey", "src/abe/zkeystore.cpp:validateNewParamsID", "schemes/zcontextcpwaters.cpp:generateParams", "schemes/zcontextkpgpsw.cpp:generateParams"]}
{"id": "C135", "title": "policies that mean the same give the same answers", "statement": "Two policies, written differently but with the same meaning (operands in another order, grouped otherwise, repeated, distributed), grant the same users access: for both schemes, under any engine, decrypting a message sealed under the one or the other gives the same answer. A policy joining two with AND opens exactly where both open; one joining them with OR exactly where either does; every other outcome is code 32 with an empty text.", "quantifier": "every two policies as written, every attribute list as written, every message up to the length limit, both schemes, any engine (also two different ones)", "why_tests_cant": "All pairs of equivalent formulas.", "anchors": ["src/lsss/zpolicy.cpp:createPolicyTree", "src/lsss/zdriver.cpp:parse_string", "src/lsss/zlsss.cpp:recoverCoefficients", "src/abe/zcontextabe.cpp:encrypt", "src/abe/zcontextabe.cpp:decrypt"]}
{"id": "C136", "title": "more attributes never take access away, and their order does not matter", "statement": "A user whose attribute list contains all of another's can decrypt whatever the other can, and listing the same attributes in another order changes nothing.", "quantifier": "every policy and every two attribute lists as written, one containing the other or a rearrangement of it, every message up to the length limit, both schemes, any engine", "why_tests_cant": "All pairs of lists.", "anchors": ["src/lsss/zattributelist.cpp:createAttributeList", "src/lsss/zdriver.cpp:parse_string", "src/lsss/zlsss.cpp:recoverCoefficients", "src/abe/zcontextabe.cpp:decrypt"]}
{"id": "C137", "title": "calls on an encryption context fail with a known code and let no exception escape", "statement": "Whatever keys and ciphertext it works on, generateParams answers 0 or 17, key generation and encrypt 0, 5, 8 or 18, decrypt 0, 8, 18 or 32, exportKey 0 or 8, deleteKey 0, and no exception leaves these calls. 17 means exactly that one of the two names is taken; 5 that the parameters are missing; 8 from key generation or encrypt that the input is of the wrong kind; 32 that the policy is not met by the attributes; 8 from exportKey that there is no such key; decrypt without the key answers 8.", "quantifier": "every store, ciphertext, input, identifier and plaintext, also keys and ciphertexts that were tampered with; both schemes; any lawful engine", "why_tests_cant": "All states of the store and all ciphertexts.", "anchors": ["src/abe/zcontextabe.cpp:encrypt", "src/abe/zcontextabe.cpp:decrypt", "src/abe/zcontextabe.cpp:exportKey", "src/abe/zcontextabe.cpp:deleteKey", "schemes/zcontextcpwaters.cpp:generateDecryptionKey", "schemes/zcontextkpgpsw.cpp:generateDecryptionKey", "src/abe/zcontainer.cpp:getComponent"]}
{"id": "C138", "title": "loading a key either adds exactly that key or reports a code and changes nothing", "statement": "loadKey with any bytes answers with a code; unless it answers 0 the context is as before, and if it does, exactly one key of this context's scheme was added under the given name.", "quantifier": "every byte string, identifier, class of key, store; both schemes; any engine", "why_tests_cant": "All byte strings.", "anchors": ["src/abe/zcontextabe.cpp:loadKey", "src/abe/zkeystore.cpp:parseKeyHeader", "src/abe/zkeystore.cpp:constructKeyFromBytes", "src/abe/zkey.cpp:loadKeyFromBytes"]}
{"id": "C139", "title": "no accepted policy exhausts the stack when it is printed or copied", "statement": "Whatever policy text is accepted, printing the policy (toString, operator<<) and copying it succeed with a fixed amount of call stack.", "quantifier": "every policy text, every amount of stack", "why_tests_cant": "The depth of nesting is unbounded, and a test exercises one stack size.", "anchors": ["src/lsss/zpolicy.cpp:OpenABETreeNode::toString", "src/lsss/zpolicy.cpp:OpenABETreeNode::OpenABETreeNode", "src/lsss/zpolicy.cpp:OpenABEPolicy::OpenABEPolicy", "include/lsss/zpolicy.h:OpenABEPolicy::toString"]}
{"id": "C140", "title": "no accepted policy exhausts the stack when a ciphertext is decrypted", "statement": "Whatever the policy, decrypting with a key that satisfies it succeeds with a fixed amount of stack.", "quantifier": "every policy text, every lawful engine, every amount of stack, every plaintext", "why_tests_cant": "The number of attributes used is unbounded, and a test exercises one stack size.", "anchors": ["src/abe/zpairing.cpp:OpenABEPairing::multi_pairing", "schemes/zcontextcpwaters.cpp:decryptKEM", "schemes/zcontextkpgpsw.cpp:decryptKEM", "src/abe/zcontextabe.cpp:OpenABEContextSchemeCPA::decrypt"]}
{"id": "C141", "title": "a long policy is read like a short one", "statement": "The text of a policy or of an attribute list shorter than 2^30 - 6 characters is read as a whole: the scanner delivers the same tokens, and createPolicyTree and createAttributeList return the same result, whatever the size of the buffer through which the text is read, wherever a name, a number or a NUL falls on the end of the buffer, and whatever part of the buffer a name fills. No character is read or written outside the buffer. (A name of 2^30 - 1 characters or more overflows the size of the buffer.)", "quantifier": "every text, every power-of-two buffer size, every block size", "why_tests_cant": "Where the blocks end depends on every length before; tests use texts shorter than one block.", "anchors": ["src/lsss/zscanner.cpp:yy_get_next_buffer", "src/lsss/zscanner.cpp:LexerInput", "src/lsss/zscanner.cpp:yy_get_previous_state", "src/lsss/zscanner.cpp:yy_try_NUL_trans", "src/lsss/zscanner.cpp:yylex", "src/lsss/zdriver.cpp:parse_string"]}
{"id": "C142", "title": "what is printed tells what it was", "statement": "The text printed for a field element tells its value and whether it has an order, its hexadecimal text read back by the constructor gives the same value, the text of an integer tells its value and its width (if that is between 1 and 31 bits), and the lines printed for an attribute list tell its attributes. This holds for all elements and lists.", "quantifier": "every pair of field elements, integers and attribute lists", "why_tests_cant": "Two objects with the same text would have to be guessed.", "anchors": ["src/lsss/zelement_bp.cpp:operator<<", "src/lsss/zelement_bp.cpp:getBytesAsString", "src/lsss/zelement_bp.cpp:ZP::ZP(char*, bignum_t)", "include/abe/zinteger.h:operator<<", "src/lsss/zattributelist.cpp:operator<<"]}
{"id": "C143", "title": "work in proportion to the text", "statement": "Reading a policy or an attribute list, and then sharing a secret under the policy, checking attributes against it and recovering coefficients, takes a number of steps that is at most a constant times the length of the text, for every text, whether it is accepted or not and whatever the policy was used for before.", "quantifier": "every text, every size of the scanner's buffer, every state of the policy's flags", "why_tests_cant": "Tests with short policies do not show how the cost grows, and the costly texts have to be constructed.", "anchors": ["src/lsss/zscanner.cpp:yylex", "src/lsss/zscanner.cpp:yy_get_next_buffer", "src/lsss/zscanner.cpp:yy_get_previous_state", "src/lsss/zparser.tab.cc:Parser::parse", "src/lsss/zlsss.cpp:iterativeShareSecret", "src/lsss/zlsss.cpp:iterativeScanTree", "src/lsss/zlsss.cpp:iterativeCoefficientRecover", "src/lsss/zpolicy.cpp:resetFlags"]}
{"id": "C144", "title": "keys live as long as they are held", "statement": "For any number of key stores and any calls on them (adding, replacing, looking up, validating, exporting, deleting, destroying a store), with the caller copying and releasing the pointers it got in any order: no pointer to a deleted key is ever followed, copied or released, a key exists exactly while the caller or some entry of an existing store holds it, a key the caller obtained survives deletion, replacement and destruction of the store, and nothing is left when all stores are gone and all pointers released.", "quantifier": "every program of calls, any number of stores, keys and pointers", "why_tests_cant": "The same key may be under several names, in both maps, in several stores and in the hands of the caller; tests exercise few orders of releasing them.", "anchors": ["src/abe/zkeystore.cpp:OpenABEKeystore::~OpenABEKeystore", "src/abe/zkeystore.cpp:OpenABEKeystore::addKey", "src/abe/zkeystore.cpp:OpenABEKeystore::getKey", "src/abe/zkeystore.cpp:OpenABEKeystore::deleteKey", "src/abe/zkeystore.cpp:OpenABEKeystore::exportKeyToBytes"]}
{"id": "C145", "title": "changes through component pointers", "statement": "In any program that creates, fills, loads, reads, erases from and destroys containers of keys and ciphertexts without copying them, and assigns new values through the pointers getComponent gave: an assignment is seen under the name and in the container the pointer was got for as long as that name has not been set, erased, loaded or destroyed since, the pointer reads what the container holds, an assignment never changes any other name or container, after the name was set again or erased it changes nothing a container holds, and no deleted object is touched.", "quantifier": "every program of calls, any number of containers, names and pointers", "why_tests_cant": "getComponent hands out the container's own object; whether a change leaks into other containers depends on every place where components are cloned or shared.", "anchors": ["src/abe/zcontainer.cpp:OpenABEContainer::getComponent", "src/abe/zcontainer.cpp:OpenABEContainer::setComponent", "src/abe/zcontainer.cpp:OpenABEContainer::deleteComponent", "src/abe/zcontainer.cpp:OpenABEContainer::deserialize"]}
{"id": "C146", "title": "objects of the streaming encryption", "statement": "Whatever calls are made on a streaming symmetric encryption context or on a stream object, in whatever order and with whatever failures: no stream object and no cipher context is used before its creation or after its deletion, deleted twice or reached through a null pointer; between calls exactly one stream and one cipher context exist for each open session and none besides; a caller who has finalised every session they began leaves nothing behind; and destroying the context or stream frees everything.", "quantifier": "every program of calls on a context or a stream object, every key, buffer and cipher", "why_tests_cant": "The objects are held by plain pointers and freed in five places; a leak or a double free needs a particular order of beginning, failing and finalising sessions.", "anchors": ["src/abe/zcontextske.cpp:OpenABEContextSchemeStreamSKE::encryptInit", "src/abe/zcontextske.cpp:OpenABEContextSchemeStreamSKE::encryptFinalize", "src/abe/zcontextske.cpp:OpenABEContextSchemeStreamSKE::decryptInit", "src/abe/zcontextske.cpp:OpenABEContextSchemeStreamSKE::decryptFinalize", "src/abe/zsymkey.cpp:OpenABESymKeyAuthEncStream"]}
{"id": "C147", "title": "temporary objects of encryption in one call", "statement": "Encrypting and decrypting in one call through the authenticated encryption object, the key handle or the encryption handler releases every temporary object it makes, whatever the text, the key and the outcome, and never uses or releases one wrongly.", "quantifier": "every program of calls on the three classes, every key, text and cipher", "why_tests_cant": "A lost object is invisible in the results; it depends on which of the failing paths a received text takes, and adds up over a long run.", "anchors": ["src/abe/zsymkey.cpp:OpenABESymKeyAuthEnc::encrypt", "src/abe/zsymkey.cpp:OpenABESymKeyAuthEnc::decrypt", "src/abe/zsymcrypto.cpp:OpenABESymKeyHandle::decrypt", "src/abe/zsymcrypto.cpp:SymKeyEncHandler::decrypt"]}
{"id": "C148", "title": "exporting gives back the memory it took", "statement": "A program can export containers, ciphertexts and keys any number of times: each export frees what it allocated, and no copy of a secret component stays in memory that nobody owns.", "quantifier": "every program of exports, every container, ciphertext and key, and every pairing library", "why_tests_cant": "A lost array is invisible in the exported bytes; the loss depends on the components and adds up over all exports.", "anchors": ["src/lsss/zelement_bp.cpp:G1::serialize", "src/lsss/zelement_bp.cpp:G2::serialize", "src/lsss/zelement_bp.cpp:GT::serialize", "src/abe/zcontainer.cpp:serialize", "src/abe/zciphertext.cpp:exportToBytes", "src/abe/zkey.cpp:exportKeyToBytes"]}
