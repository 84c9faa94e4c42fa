{"id": "C01", "title": "Constant-time comparison agrees with byte-wise order", "statement": "For any two buffers of equal length, torsion_memcmp and torsion_memcmp_var return a negative, zero or positive number exactly when the first buffer is lexicographically (unsigned bytes) smaller than, equal to or greater than the second; torsion_memequal returns 1 exactly when the buffers are equal and 0 otherwise.", "quantifier": "all pairs of byte strings of every equal length", "why_tests_cant": "The branch-free borrow arithmetic must be right for every one of the 256^(2n) input pairs; tests sample a few.", "anchors": ["src/util.c:torsion_memcmp", "src/util.c:torsion_memcmp_var", "src/util.c:torsion_memequal"]}
{"id": "C02", "title": "XOR helpers are involutive and byte-wise", "statement": "torsion_memxor(z,x) XORs each byte of x into z; applying it twice restores z, and torsion_memxor3 writes the byte-wise XOR of its two inputs.", "quantifier": "all buffers of every length", "why_tests_cant": "must hold for every length and content", "anchors": ["src/util.c:torsion_memxor", "src/util.c:torsion_memxor3"]}
{"id": "C03", "title": "Murmur3 computes the published 32-bit function and never reads past the buffer", "statement": "murmur3_sum(data,len,seed) equals the published MurmurHash3_x86_32 recurrence (4-byte little-endian blocks, tail, length mix, avalanche) for each length residue, and murmur3_tweak(n,tweak) is murmur3_sum with seed n*0xfba4c795+tweak mod 2^32.", "quantifier": "all byte strings, all seeds", "why_tests_cant": "tail handling depends on len mod 4 and wrap-around on every 32-bit value", "anchors": ["src/util.c:murmur3_sum", "src/util.c:murmur3_tweak"]}
{"id": "C04", "title": "Hex encoding round-trips and decoding is strict", "statement": "base16_decode accepts a string iff it has even length and only hex digits of either case; it then returns the bytes whose lower-case hex encoding is the lower-cased string. base16_encode followed by base16_decode returns the original bytes; base16_test accepts exactly what base16_decode accepts. The little-endian variant does the same with the bytes reversed.", "quantifier": "all byte strings and all character strings", "why_tests_cant": "acceptance must be exact on all 256^n strings", "anchors": ["src/encoding.c:base16_encode", "src/encoding.c:base16_decode", "src/encoding.c:base16le_encode", "src/encoding.c:base16le_decode", "src/encoding.c:base16_test"]}
{"id": "C05", "title": "Base32 encoding round-trips and decoding is canonical", "statement": "For base32 and base32hex, with or without padding, decode(encode(b)) = b with the matching padding flag; and any string accepted by decode is, up to letter case, exactly the encoding of the bytes returned (no non-canonical trailing bits, no stray or missing padding).", "quantifier": "all byte strings, all character strings, both alphabets, both padding modes", "why_tests_cant": "canonicity is a statement about every string the decoder might accept", "anchors": ["src/encoding.c:base32_encode", "src/encoding.c:base32_decode", "src/encoding.c:base32hex_encode", "src/encoding.c:base32hex_decode"]}
{"id": "C06", "title": "Base58 is a bijection with leading zeros preserved", "statement": "base58_encode succeeds on every input without tripping its internal assertion, base58_decode(base58_encode(b)) = b, and every string base58_decode accepts is the base58_encode of what it returned.", "quantifier": "all byte strings and character strings of every length", "why_tests_cant": "big-number radix conversion with a fixed-size work buffer: the size bound and carry assertion must hold for all lengths", "anchors": ["src/encoding.c:base58_encode", "src/encoding.c:base58_decode", "src/encoding.c:base58_test"]}
{"id": "C07", "title": "Base64 and Base64url round-trip and decode canonically", "statement": "base64_decode(base64_encode(b)) = b, base64url likewise, and every accepted string is exactly the encoding of the returned bytes (correct padding for base64, none for base64url, zero trailing bits).", "quantifier": "all byte strings and character strings", "why_tests_cant": "canonicity ranges over every accepted string", "anchors": ["src/encoding.c:base64_encode", "src/encoding.c:base64_decode", "src/encoding.c:base64url_encode", "src/encoding.c:base64url_decode"]}
{"id": "C08", "title": "Encoded and decoded lengths match the advertised size functions", "statement": "For base16/32/32hex/58/64/64url the number of characters or bytes produced never exceeds the *_ENCODE_SIZE / *_DECODE_SIZE macro the caller allocates by, and for base16/32/64 equals the size function.", "quantifier": "all inputs of every length", "why_tests_cant": "an off-by-one at any residue is a buffer overflow", "anchors": ["include/torsion/encoding.h", "src/encoding.c:base64_encode_size", "src/encoding.c:base64_decode_size", "src/encoding.c:base32_encode_size", "src/encoding.c:base32_decode_size"]}
{"id": "C09", "title": "Bech32 strings round-trip and parsing is canonical", "statement": "Every string produced by bech32_serialize is accepted by bech32_deserialize with the same prefix, data and checksum constant; every string accepted is single-case and its lower-case form is the serialization of the parsed prefix and data.", "quantifier": "all prefixes and 5-bit data sequences, all strings", "why_tests_cant": "acceptance ranges over all strings", "anchors": ["src/encoding.c:bech32_serialize", "src/encoding.c:bech32_deserialize", "src/encoding.c:bech32_is"]}
{"id": "C10", "title": "Bech32 detects any substitution of up to four characters", "statement": "If a valid bech32 string is altered by substituting between one and four characters of its data part (any positions, total length at most 90), none of the substitutes being the separator '1', bech32_deserialize rejects it. With the separator among the substitutes this fails (a witness is given).", "quantifier": "all valid strings and all error patterns of weight at most four", "why_tests_cant": "about 10^13 error patterns times all messages", "anchors": ["src/encoding.c:bech32_polymod", "src/encoding.c:bech32_deserialize"]}
{"id": "C11", "title": "Segwit-style address encoding round-trips", "statement": "bech32_encode(hrp,version,hash) succeeds for every supported version and 2..40-byte hash within the length limit and bech32_decode returns the same hrp, version and hash; every decoded string re-encodes to its lower-case form.", "quantifier": "all versions, hashes, prefixes", "why_tests_cant": "8-to-5 bit regrouping with padding for every length residue", "anchors": ["src/encoding.c:bech32_encode", "src/encoding.c:bech32_decode", "src/encoding.c:bech32_convert_bits"]}
{"id": "C12", "title": "CashAddr strings round-trip, canonical and bound to the expected prefix", "statement": "cash32_decode(cash32_encode(prefix,type,hash),prefix) returns the same type and hash; accepted strings re-encode to their lower-case form with the prefix.", "quantifier": "all prefixes, types and supported hash sizes", "why_tests_cant": "acceptance ranges over all strings", "anchors": ["src/encoding.c:cash32_serialize", "src/encoding.c:cash32_deserialize", "src/encoding.c:cash32_encode", "src/encoding.c:cash32_decode"]}
{"id": "C13", "title": "CashAddr checksum detects substitutions", "statement": "Substituting between one and four characters in the payload of a valid CashAddr string, none of the substitutes being a colon, makes cash32_deserialize reject it. With a colon among the substitutes this fails for addresses without prefix (a witness is given).", "quantifier": "all valid strings and error patterns", "why_tests_cant": "error patterns times all messages", "anchors": ["src/encoding.c:cash32_polymod", "src/encoding.c:cash32_deserialize"]}
{"id": "C14", "title": "DER integers and headers parse back to what was written", "statement": "For every non-negative integer within the size limit, reading what asn1_write_mpz wrote yields the integer and consumes exactly the bytes written, which number exactly asn1_size_mpz; same for sequence headers, version and small integers.", "quantifier": "all integers and trailing data", "why_tests_cant": "length-of-length and sign-byte boundaries for every size", "anchors": ["src/asn1.c:asn1_read_mpz", "src/asn1.c:asn1_write_mpz", "src/asn1.c:asn1_size_mpz", "src/asn1.c:asn1_read_size", "src/asn1.c:asn1_write_size"]}
{"id": "C15", "title": "Strict DER parsing is canonical", "statement": "When strict reading accepts a prefix of the input as a size/integer, that prefix is byte-for-byte what the writer would emit for the parsed value, so a key or signature has exactly one accepted strict encoding.", "quantifier": "all byte strings", "why_tests_cant": "malleability is about every accepted string", "anchors": ["src/asn1.c:asn1_read_size", "src/asn1.c:asn1_read_mpz", "src/asn1.c:asn1_read_seq"]}
{"id": "C16", "title": "DER readers never read out of bounds", "statement": "On any input, each asn1 reader either fails or advances by at most the remaining length; no access beyond the supplied length occurs.", "quantifier": "all byte strings", "why_tests_cant": "memory safety on hostile input", "anchors": ["src/asn1.c"]}
{"id": "C17", "title": "Stream ciphers are self-inverse and chunk-independent", "statement": "For arc4, chacha20 and salsa20: encrypting a message in any sequence of chunks gives the same bytes as in one call, and re-running from the same initial state on the ciphertext restores the plaintext.", "quantifier": "all keys, nonces, counters, messages and chunkings", "why_tests_cant": "all ways of splitting all messages", "anchors": ["src/stream.c:arc4_crypt", "src/stream.c:chacha20_crypt", "src/stream.c:salsa20_crypt"]}
{"id": "C18", "title": "ARC4 state remains a permutation", "statement": "After arc4_init with any key and after any number of output bytes the 256-entry table is a permutation of 0..255, so every index read is in range and no value is lost.", "quantifier": "all keys and all histories", "why_tests_cant": "invariant over unbounded histories", "anchors": ["src/stream.c:arc4_init", "src/stream.c:arc4_crypt"]}
{"id": "C19", "title": "ChaCha20 keystream is the RFC 8439 / original block function with the block counter", "statement": "The i-th 64-byte keystream block is the ChaCha20 block function of (key, counter+i, nonce); for 8-, 12- and 16-byte nonces the counter layout is the documented one, and the rounds are invertible.", "quantifier": "all keys, nonces, counters, block indices", "why_tests_cant": "counter carry over 2^32 blocks cannot be tested", "anchors": ["src/stream.c:chacha20_init", "src/stream.c:chacha20_block", "src/stream.c:chacha20_crypt"]}
{"id": "C20", "title": "Salsa20 with distinct nonces never shares keystream blocks", "statement": "Two salsa20 instances with the same key and distinct nonces of the same length produce keystreams with no common block inputs for the first 2^64 blocks.", "quantifier": "all pairs of distinct nonces", "why_tests_cant": "ranges over all nonce pairs and block indices", "anchors": ["src/stream.c:salsa20_init", "src/stream.c:salsa20_crypt"]}
{"id": "C21", "title": "Poly1305 equals its mathematical definition", "statement": "poly1305 over any message, fed in any chunks, outputs ((sum of clamped-r polynomial of the message blocks mod 2^130-5) + s) mod 2^128 little-endian, on both the 64-bit and 32-bit limb code paths, with no limb overflow.", "quantifier": "all keys, messages and chunkings", "why_tests_cant": "carry bugs hit with probability 2^-64", "anchors": ["src/mac.c:poly1305_init", "src/mac.c:poly1305_blocks", "src/mac.c:poly1305_update", "src/mac.c:poly1305_final"]}
{"id": "C22", "title": "Poly1305 padding and message encoding are exact", "statement": "poly1305_pad in the middle of a message is exactly the absorption of zero bytes up to the next multiple of 16 (in both limb paths), and two different messages never have the same polynomial coefficients, whatever their lengths.", "quantifier": "all keys, messages, chunkings and pairs of messages", "why_tests_cant": "a length- or padding-ambiguity shows only for particular pairs of messages", "anchors": ["src/mac.c:poly1305_pad", "src/mac.c:poly1305_blocks", "src/mac.c:poly1305_final"]}
{"id": "C23", "title": "SipHash agrees with SipHash-2-4 and its reductions stay in range", "statement": "siphash_sum is SipHash-2-4 of the message for every length, and siphash_mod(...,m) is floor(hash*m/2^64), hence < m for m>0, in both the native and the fallback multiply.", "quantifier": "all keys, messages, moduli", "why_tests_cant": "128-bit multiply fallback must be exact for every pair", "anchors": ["src/mac.c:siphash_sum", "src/mac.c:siphash_mod", "src/mac.c:siphash128_sum"]}
{"id": "C24", "title": "ChaCha20-Poly1305 AEAD round-trips and authenticates under any chunking", "statement": "For every key, nonce, AAD and message split into any chunks (including empty), encrypt then decrypt restores the message and both sides compute the same tag, which is the RFC 8439 tag of (AAD, ciphertext).", "quantifier": "all keys, AAD, messages, chunkings", "why_tests_cant": "interleaving of padding and chunk boundaries", "anchors": ["src/aead.c"]}
{"id": "C25", "title": "Secretbox opens exactly what was sealed", "statement": "secretbox_open(secretbox_seal(m)) = m for any key and nonce; open fails on inputs shorter than 16 bytes and whenever the tag differs from Poly1305 of the ciphertext.", "quantifier": "all keys, nonces, messages, boxes", "why_tests_cant": "authenticity over all forged boxes", "anchors": ["src/ies.c"]}
{"id": "C26", "title": "Block cipher decryption inverts encryption", "statement": "For AES, ARC2, Blowfish, Camellia, CAST5, DES/3DES, IDEA, Serpent and Twofish, decrypting an encrypted block under the same key returns the block, and vice versa.", "quantifier": "all keys and blocks", "why_tests_cant": "2^128 blocks times 2^256 keys", "anchors": ["src/cipher.c:aes_encrypt", "src/cipher.c:arc2_encrypt", "src/cipher.c:blowfish_encrypt", "src/cipher.c:camellia_encrypt", "src/cipher.c:cast5_encrypt", "src/cipher.c:des_encrypt", "src/cipher.c:idea_encrypt", "src/cipher.c:serpent_encrypt", "src/cipher.c:twofish_encrypt"]}
{"id": "C27", "title": "PKCS#7 padding removal accepts exactly canonical padding", "statement": "pkcs7_unpad on one block accepts iff the last byte n is in 1..block size and the last n bytes all equal n, and then reports block size - n; padding then unpadding restores any partial block.", "quantifier": "all blocks and block sizes", "why_tests_cant": "padding-oracle grade exactness over all blocks", "anchors": ["src/cipher.c:pkcs7_pad", "src/cipher.c:pkcs7_unpad"]}
{"id": "C28", "title": "ECB and CBC decryption inverts encryption", "statement": "For any block permutation, multi-block ECB and CBC decryption with the same IV restores the plaintext, and processing blocks in any grouping gives the same result.", "quantifier": "all keys, IVs, block sequences, groupings", "why_tests_cant": "all messages and splits", "anchors": ["src/cipher.c:ecb_encrypt", "src/cipher.c:cbc_encrypt", "src/cipher.c:cbc_decrypt"]}
{"id": "C29", "title": "Ciphertext stealing round-trips", "statement": "CBC-CTS and XTS with a partial final block of any length decrypt back to the plaintext and preserve length.", "quantifier": "all message lengths at least one block", "why_tests_cant": "steal logic for every residue", "anchors": ["src/cipher.c:cbc_steal", "src/cipher.c:cbc_unsteal", "src/cipher.c:xts_steal", "src/cipher.c:xts_unsteal"]}
{"id": "C30", "title": "XTS encryption round-trips with the GF(2^128) tweak sequence", "statement": "XTS decrypt inverts encrypt for any number of blocks and the tweak of block i is alpha^i times the encrypted IV.", "quantifier": "all keys, IVs, messages", "why_tests_cant": "unbounded tweak sequence", "anchors": ["src/cipher.c:xts_encrypt", "src/cipher.c:xts_decrypt", "src/cipher.c:xts_shift"]}
{"id": "C31", "title": "CTR, CFB and OFB are byte-granular, invertible and chunk-independent", "statement": "Decrypting with the same IV restores the plaintext and splitting the message arbitrarily at byte boundaries never changes the output.", "quantifier": "all messages and all splits", "why_tests_cant": "all splits", "anchors": ["src/cipher.c:ctr_crypt", "src/cipher.c:cfb_encrypt", "src/cipher.c:cfb_decrypt", "src/cipher.c:ofb_crypt", "src/cipher.c:stream_update"]}
{"id": "C32", "title": "GHASH is polynomial evaluation over GF(2^128)", "statement": "The table-driven/bit-sliced GHASH multiply equals carry-less multiplication modulo x^128+x^7+x^2+x+1 in GCM bit order, and the digest of AAD and ciphertext in any chunks is the GCM polynomial.", "quantifier": "all keys, AAD, data, chunkings", "why_tests_cant": "2^256 operand pairs", "anchors": ["src/cipher.c:ghash_init", "src/cipher.c:ghash_transform", "src/cipher.c:ghash_update"]}
{"id": "C33", "title": "GCM, CCM and EAX round-trip and agree on tags", "statement": "For each AEAD mode and any block permutation, nonce, AAD and message in any chunks, decryption restores the message and computes the same tag as encryption.", "quantifier": "all inputs and chunkings", "why_tests_cant": "all inputs", "anchors": ["src/cipher.c:gcm_init", "src/cipher.c:ccm_init", "src/cipher.c:eax_init"]}
{"id": "C34", "title": "Distinct CCM nonces give distinct counter streams", "statement": "Two CCM encryptions under the same key with different nonces never use the same counter block or the same B0 block.", "quantifier": "all nonce pairs and message lengths", "why_tests_cant": "all nonce pairs", "anchors": ["src/cipher.c:ccm_setup", "src/cipher.c:ccm_init"]}
{"id": "C35", "title": "Cipher stream API: output independent of chunking, sizes as predicted", "statement": "For cipher_stream objects, concatenated output of updates and final does not depend on how the input was split; each update writes exactly cipher_stream_update_size bytes and final exactly cipher_stream_final_size.", "quantifier": "all inputs, chunkings, modes, padding flag", "why_tests_cant": "histories of calls", "anchors": ["src/cipher.c:cipher_stream_update", "src/cipher.c:cipher_stream_final", "src/cipher.c:cipher_stream_update_size", "src/cipher.c:cipher_stream_final_size"]}
{"id": "C36", "title": "Cipher stream decryption inverts encryption for every mode", "statement": "Running a decrypting cipher_stream over the output of an encrypting one with the same parameters succeeds and restores the plaintext (with PKCS#7 padding where enabled; only block-multiple inputs accepted when disabled).", "quantifier": "all inputs, chunkings, modes", "why_tests_cant": "all histories", "anchors": ["src/cipher.c:cipher_stream_init", "src/cipher.c:cipher_stream_update", "src/cipher.c:cipher_stream_final"]}
{"id": "C37", "title": "Hash updates are chunk-independent", "statement": "For every hash in the library, feeding a message through update in any sequence of chunks yields the digest of the concatenation.", "quantifier": "all messages and chunkings", "why_tests_cant": "all splits", "anchors": ["src/hash.c:sha256_update", "src/hash.c:sha512_update", "src/hash.c:md5_update", "src/hash.c:keccak_update", "src/hash.c:blake2b_update", "src/hash.c:md2_update", "src/hash.c:whirlpool_update", "src/hash.c:gost94_update"]}
{"id": "C38", "title": "Merkle-Damgard padding is as specified and injective", "statement": "The MD/SHA families compress exactly message || 0x80 || zeros || 64- or 128-bit length; distinct messages (within the length limit) are padded to distinct block sequences.", "quantifier": "all messages", "why_tests_cant": "all lengths", "anchors": ["src/hash.c:sha256_final", "src/hash.c:sha512_final", "src/hash.c:md5_final", "src/hash.c:sha1_final", "src/hash.c:ripemd160_final"]}
{"id": "C39", "title": "SHA-256/SHA-512/SHA-1 compression equals the FIPS 180-4 definition", "statement": "The unrolled compression functions equal the specification's round recurrence with message schedule.", "quantifier": "all states and blocks", "why_tests_cant": "all states", "anchors": ["src/hash.c:sha256_transform", "src/hash.c:sha512_transform", "src/hash.c:sha1_transform"]}
{"id": "C40", "title": "Keccak permutation and sponge follow FIPS 202", "statement": "The unrolled permutation equals theta, rho, pi, chi, iota on the 5x5 lanes; absorb/squeeze with domain byte and pad10*1 equals the sponge definition for every rate and output length.", "quantifier": "all states, messages, output lengths", "why_tests_cant": "all states", "anchors": ["src/hash.c:keccak_compress", "src/hash.c:keccak_update", "src/hash.c:keccak_final"]}
{"id": "C41", "title": "HMAC is RFC 2104", "statement": "hmac_init/update/final over any chunks equals H((K' xor opad) || H((K' xor ipad) || m)), with keys longer than a block hashed first.", "quantifier": "all hashes, keys, messages, chunkings", "why_tests_cant": "all key lengths and chunkings", "anchors": ["src/hash.c:hmac_init", "src/hash.c:hmac_update", "src/hash.c:hmac_final"]}
{"id": "C42", "title": "HKDF and PBKDF2 equal RFC 5869 and RFC 8018", "statement": "hkdf_extract/expand and pbkdf2_derive produce the standard's T(i) concatenation truncated to any requested length, and fail only on lengths above the stated bound.", "quantifier": "all inputs and output lengths", "why_tests_cant": "all lengths and iteration counts", "anchors": ["src/kdf.c:hkdf_extract", "src/kdf.c:hkdf_expand", "src/kdf.c:pbkdf2_derive"]}
{"id": "C43", "title": "Key derivation always terminates", "statement": "eb2k_derive, pgpdf_derive_simple/salted/iterated return for every input.", "quantifier": "all inputs", "why_tests_cant": "termination", "anchors": ["src/kdf.c:eb2k_derive", "src/kdf.c:pgpdf_derive_iterated"]}
{"id": "C44", "title": "bcrypt verification accepts what generation produced", "statement": "bcrypt_verify(pass, bcrypt_generate(pass,salt,rounds)) = 1 for every password, salt and permitted cost; encoded records parse back to the same fields.", "quantifier": "all passwords, salts, costs", "why_tests_cant": "all passwords", "anchors": ["src/kdf.c:bcrypt_generate", "src/kdf.c:bcrypt_verify"]}
{"id": "C45", "title": "DRBG output follows SP 800-90A and is chunk-specified", "statement": "hmac_drbg, hash_drbg and ctr_drbg init/reseed/generate equal the standard's state machine for any seed and request sizes; reseeding advances state.", "quantifier": "all seeds and request histories", "why_tests_cant": "all histories", "anchors": ["src/drbg.c:hmac_drbg_generate", "src/drbg.c:hash_drbg_generate", "src/drbg.c:ctr_drbg_generate"]}
{"id": "C46", "title": "Distinct CTR-DRBG seeds are not silently truncated", "statement": "ctr_drbg_init with derivation depends on all of its seed bytes.", "quantifier": "all seeds", "why_tests_cant": "all seed pairs", "anchors": ["src/drbg.c:ctr_drbg_init"]}
{"id": "C47", "title": "Uniform random integers are in range and unbiased", "statement": "torsion_uniform(max) returns a value < max, and over uniformly distributed 32-bit source words every residue has exactly the same number of accepted preimages.", "quantifier": "all max, all source words", "why_tests_cant": "bias is a counting statement over 2^32 words for each of 2^32 bounds", "anchors": ["src/rand.c:rng_uniform"]}
{"id": "C48", "title": "RNG pool words are never served twice", "statement": "Each 32-bit word of the generator pool is handed out at most once and refilled after exhaustion.", "quantifier": "all request histories", "why_tests_cant": "histories", "anchors": ["src/rand.c:rng_random"]}
{"id": "C49", "title": "Limb arithmetic computes exact integers", "statement": "mpn_add/sub/mul/sqr/addmul/submul/shift/neg/compare on any limb counts equal integer arithmetic modulo the base power with exact carry/borrow.", "quantifier": "all operand sizes and values", "why_tests_cant": "carry chains", "anchors": ["src/mpi.c:mpn_add_n", "src/mpi.c:mpn_sub_n", "src/mpi.c:mpn_mul", "src/mpi.c:mpn_sqr", "src/mpi.c:mpn_addmul_1"]}
{"id": "C50", "title": "Division yields quotient and remainder", "statement": "mpn_divmod / mpz_quorem / mpz_divmod satisfy n = q*d + r with the documented sign and range of r, including the reciprocal-based 2-by-1 and 3-by-2 steps.", "quantifier": "all dividends and nonzero divisors", "why_tests_cant": "the rare correction branches occur with probability 2^-64", "anchors": ["src/mpi.c:mpn_divmod", "src/mpi.c:mp_div_2by1", "src/mpi.c:mp_div_3by2", "src/mpi.c:mpz_quorem", "src/mpi.c:mpz_divmod"]}
{"id": "C51", "title": "Signed big-integer operations equal integer operations", "statement": "mpz_add/sub/mul/cmp/neg/abs/addmul and the _ui/_si variants compute exact signed results and keep the representation normalized.", "quantifier": "all integers", "why_tests_cant": "sign/size case analysis on all integers", "anchors": ["src/mpi.c:mpz_add", "src/mpi.c:mpz_sub", "src/mpi.c:mpz_mul", "src/mpi.c:mpz_cmp"]}
{"id": "C52", "title": "Bitwise operations follow infinite two's complement", "statement": "mpz_and/ior/xor/com/tstbit/setbit/shift equal the two's complement operations on negative and positive integers alike.", "quantifier": "all integers", "why_tests_cant": "all sign combinations and sizes", "anchors": ["src/mpi.c:mpz_and", "src/mpi.c:mpz_ior", "src/mpi.c:mpz_xor", "src/mpi.c:mpz_tstbit"]}
{"id": "C53", "title": "GCD, extended GCD and modular inverse are correct", "statement": "mpz_gcd equals the gcd, mpz_gcdext satisfies Bezout, mpz_invert returns z with x*z = 1 mod |y| iff gcd(x,y)=1.", "quantifier": "all integers", "why_tests_cant": "termination and invariants of binary gcd", "anchors": ["src/mpi.c:mpn_gcd", "src/mpi.c:mpz_gcdext", "src/mpi.c:mpz_invert"]}
{"id": "C54", "title": "Modular exponentiation is correct on every path", "statement": "mpz_powm and mpz_powm_sec return x^y mod m, via division, Montgomery sliding window or constant-time fixed window.", "quantifier": "all bases, exponents, moduli", "why_tests_cant": "window and reduction edge cases", "anchors": ["src/mpi.c:mpn_powm", "src/mpi.c:mpn_mont_powm", "src/mpi.c:mpn_sec_powm", "src/mpi.c:mpn_montmul"]}
{"id": "C55", "title": "Jacobi symbol, square roots and perfect squares are correct", "statement": "mpz_jacobi equals the Jacobi symbol; mpz_sqrtrem returns floor sqrt and remainder.", "quantifier": "all integers", "why_tests_cant": "all integers", "anchors": ["src/mpi.c:mpn_jacobi", "src/mpi.c:mpz_sqrtrem"]}
{"id": "C56", "title": "Integer import/export and string conversion round-trip", "statement": "mpz_import(mpz_export(x)) = x for every non-negative x, both byte orders and any sufficient size (the sign is not exported, and an insufficient size aborts); mpz_set_str accepts exactly the integers of the given base (with sign, spaces and C prefixes); mpz_get_str writes the shortest numeral, of mpz_sizeinbase characters; mpz_set_str(mpz_get_str(x,b),b) = x for every base 2..62.", "quantifier": "all integers, bases, sizes", "why_tests_cant": "all bases and sizes", "anchors": ["src/mpi.c:mpz_import", "src/mpi.c:mpz_export", "src/mpi.c:mpz_set_str", "src/mpi.c:mpz_get_str", "src/mpi.c:mpz_sizeinbase"]}
{"id": "C57", "title": "RSA private operation is correct or refuses", "statement": "For any key passing the private key check, the CRT private operation either fails or returns out with out^e = msg (mod n); with prime p,q it always succeeds and inverts encryption. No faulty CRT result is ever released.", "quantifier": "all keys accepted by verification (even with composite factors), messages, blinding values", "why_tests_cant": "all keys and faults", "anchors": ["src/rsa.c:rsa_priv_decrypt", "src/rsa.c:rsa_priv_verify"]}
{"id": "C58", "title": "RSA PKCS#1 v1.5 signatures verify", "statement": "rsa_verify accepts what rsa_sign returned for the same digest, and accepts only signatures whose e-th power is exactly the unique encoded digest.", "quantifier": "all keys, digests, signatures", "why_tests_cant": "exact padding check over all signatures", "anchors": ["src/rsa.c:rsa_sign", "src/rsa.c:rsa_verify"]}
{"id": "C59", "title": "PKCS#1 v1.5 unpadding accepts exactly well-formed blocks", "statement": "pkcs1v15 decryption returns M iff the block is 00 02 PS 00 M with PS at least 8 nonzero bytes.", "quantifier": "all blocks", "why_tests_cant": "all blocks", "anchors": ["src/rsa.c:pkcs1v15_unpad", "src/rsa.c:rsa_decrypt"]}
{"id": "C60", "title": "OAEP decoding inverts encoding and rejects everything else", "statement": "rsa_decrypt_oaep(rsa_encrypt_oaep(m,label),label) = m for any seed, and decoding succeeds only on blocks that are OAEP encodings of the result with that label.", "quantifier": "all messages, labels, seeds, blocks", "why_tests_cant": "all blocks", "anchors": ["src/rsa.c:rsa_encrypt_oaep", "src/rsa.c:rsa_decrypt_oaep"]}
{"id": "C61", "title": "PSS signatures verify with the salt length they were made with", "statement": "pss_verify accepts pss_encode's output for every embits, hash and salt, and with an explicit positive salt length accepts only that salt length.", "quantifier": "all digests, salts, modulus sizes", "why_tests_cant": "mask arithmetic for each bit residue", "anchors": ["src/rsa.c:pss_encode", "src/rsa.c:pss_verify"]}
{"id": "C62", "title": "RSA veil/unveil round-trips", "statement": "rsa_unveil(rsa_veil(c,bits),bits) = c and the veiled value has at most `bits` bits.", "quantifier": "all ciphertexts and bits", "why_tests_cant": "all values", "anchors": ["src/rsa.c:rsa_pub_veil", "src/rsa.c:rsa_pub_unveil"]}
{"id": "C63", "title": "DSA signatures verify", "statement": "dsa_verify accepts what dsa_sign returned when g has order q modulo p, and both reject out-of-range r,s.", "quantifier": "all parameters, keys, messages, nonces", "why_tests_cant": "algebraic identity over all values", "anchors": ["src/dsa.c:dsa_sign", "src/dsa.c:dsa_verify"]}
{"id": "C64", "title": "Scalar recodings represent the scalar", "statement": "The NAF, joint sparse form and fixed-window recodings used by point multiplication evaluate back to the scalar(s), with digits in the table range.", "quantifier": "all scalars, widths", "why_tests_cant": "all scalars", "anchors": ["src/ecc.c:sc_naf_var0", "src/ecc.c:sc_jsf_var0"]}
{"id": "C65", "title": "Point formulas implement the group law", "statement": "The affine, Jacobian, mixed, projective and extended Edwards addition/doubling formulas, including the branch-free unified ones, equal chord-and-tangent (or Edwards) addition for all points, including doubling, inverse and infinity cases.", "quantifier": "all points on all curves over any field of the stated form", "why_tests_cant": "exceptional cases", "anchors": ["src/ecc.c:wge_add", "src/ecc.c:jge_add", "src/ecc.c:jge_dbl", "src/ecc.c:xge_add", "src/ecc.c:xge_dbl", "src/ecc.c:pge_ladder"]}
{"id": "C66", "title": "ECDSA signatures verify and recover the signer", "statement": "Over any group of prime order, ecdsa_verify accepts ecdsa_sign's output, the S value is low, and ecdsa_recover with the emitted parameter returns the signer's public key.", "quantifier": "all keys, messages, nonces", "why_tests_cant": "algebraic identity", "anchors": ["src/ecc.c:ecdsa_sign_internal", "src/ecc.c:ecdsa_verify", "src/ecc.c:ecdsa_recover"]}
{"id": "C67", "title": "ECDSA DER signatures round-trip", "statement": "ecdsa_sig_import(ecdsa_sig_export(sig)) = sig for every signature with in-range components; strict import accepts only that encoding.", "quantifier": "all signatures", "why_tests_cant": "all signatures and DER strings", "anchors": ["src/ecc.c:ecdsa_encode_der", "src/ecc.c:ecdsa_decode_der"]}
{"id": "C68", "title": "Schnorr and EdDSA signatures verify, singly and in batch", "statement": "bip340/bipschnorr/eddsa verification accepts what signing produced; a batch of valid signatures is accepted for any random coefficients.", "quantifier": "all keys, messages, randomizers", "why_tests_cant": "algebraic identity", "anchors": ["src/ecc.c:bip340_sign", "src/ecc.c:bip340_verify", "src/ecc.c:bip340_verify_batch", "src/ecc.c:eddsa_sign_with_scalar", "src/ecc.c:eddsa_verify", "src/ecc.c:eddsa_verify_batch"]}
{"id": "C69", "title": "Diffie-Hellman agrees", "statement": "Both parties of ecdh_derive / ecdsa_derive compute the same secret, and key tweaks commute with public key tweaks.", "quantifier": "all key pairs, tweaks", "why_tests_cant": "algebraic identity", "anchors": ["src/ecc.c:ecdsa_derive", "src/ecc.c:ecdh_derive", "src/ecc.c:ecdsa_privkey_tweak_add", "src/ecc.c:ecdsa_pubkey_tweak_add"]}
{"id": "C70", "title": "scrypt equals RFC 7914", "statement": "scrypt_derive returns the RFC 7914 key for every accepted N, r, p and length, and fails exactly on zero or non-power-of-two N, r*p >= 2^30, oversized lengths and memory sizes that overflow.", "quantifier": "all passwords, salts, N, r, p, lengths", "why_tests_cant": "parameter space is unbounded; wrong interleaving or integerify only shows for some r and N", "anchors": ["src/kdf.c:scrypt_derive", "src/kdf.c:smix", "src/kdf.c:blockmix_salsa8"]}
{"id": "C71", "title": "EB2K and PGPDF equal EVP_BytesToKey and OpenPGP S2K", "statement": "eb2k_derive splits the D_i stream into key and iv for all lengths; pgpdf_derive_salted/iterated hash i zero octets followed by exactly max(count, whole) octets of the repeated salt and passphrase.", "quantifier": "all inputs, counts and lengths", "why_tests_cant": "all lengths and counts including partial repeats", "anchors": ["src/kdf.c:eb2k_derive", "src/kdf.c:pgpdf_derive_salted", "src/kdf.c:pgpdf_derive_iterated"]}
{"id": "C72", "title": "bcrypt_pbkdf terminates and fills the whole key in interleaved order", "statement": "For every key size 1..1024, password, salt and round count, bcrypt_pbkdf finishes after at most 32 blocks and writes every output byte exactly from block (d mod stride)+1, byte d/stride; no byte is left uninitialised.", "quantifier": "all sizes, passwords, salts, rounds", "why_tests_cant": "the scatter loop's remaining-length bookkeeping must hold for every size; a test covers one", "anchors": ["src/kdf.c:bcrypt_pbkdf"]}
{"id": "C73", "title": "Primality tests on primes, and trial division is exact", "statement": "For every prime p and every choice of random bases, Miller-Rabin accepts p; the Lucas test accepts p exactly when some a from 3 to 10000 makes a^2 - 4 zero or a non-square modulo p; the small-prime bit table is exactly the primes below 1024; the primorial residues detect exactly the divisors 3..53; so mpz_probab_prime_p accepts a prime exactly when it is below 1024 or such an a exists.", "quantifier": "all primes, all random bases, both limb sizes", "why_tests_cant": "the claim ranges over every prime and every random base; a test samples a few", "anchors": ["src/mpi.c:mpz_mr_prime_p", "src/mpi.c:mpz_probab_prime_p", "src/mpi.c:mpz_mod_primorial", "src/mpi.c:mp_primes", "src/mpi.c:mpz_lucas_prime_p"]}
{"id": "C74", "title": "Factorials, binomials, Fibonacci and Lucas numbers are exact", "statement": "mpz_mfac_uiui, mpz_bin_ui, mpz_fib2_ui and mpz_lucnum2_ui return the mathematical values for every argument; the intermediate divisions of mpz_bin_ui are exact.", "quantifier": "all arguments", "why_tests_cant": "all sizes and both signs", "anchors": ["src/mpi.c:mpz_mfac_uiui", "src/mpi.c:mpz_bin_ui", "src/mpi.c:mpz_fib2_ui", "src/mpi.c:mpz_lucnum2_ui"]}
{"id": "C75", "title": "Rebuilding an RSA private key from modulus and exponents fails for every draw when e*d = 3 mod 4", "statement": "rsa_priv_set_ned should find the factors of n for about half of the random bases. Its loop runs one squaring short: if e*d = 3 mod 4 it fails for every base, and such valid keys exist.", "quantifier": "all valid keys and all random draws", "why_tests_cant": "The failure depends on the 2-adic valuation of e*d-1, which is 1 for only some keys, and the function is used only as a fallback for malformed input.", "anchors": ["src/rsa.c:rsa_priv_set_ned", "src/rsa.c:rsa_privkey_import"]}
{"id": "C76", "title": "RSA keys survive encoding, recovery and generation", "statement": "Every key accepted by the private key check is exported to DER that imports to the same key; every accepted DER encoding is the one the exporter produces; keys recovered from (p,q,e), (p,q,d) or (n,e,d), and generated keys, pass the private key check, and a generated modulus has exactly the requested number of bits.", "quantifier": "all keys, encodings, primes and exponents", "why_tests_cant": "Key space and the space of malformed encodings are unbounded for any test suite.", "anchors": ["src/rsa.c:rsa_priv_import", "src/rsa.c:rsa_priv_export", "src/rsa.c:rsa_priv_set_pqe", "src/rsa.c:rsa_priv_set_pqd", "src/rsa.c:rsa_priv_generate"]}
{"id": "C77", "title": "DSA parameters, keys and signatures survive encoding; generated ones pass the full checks", "statement": "Sane groups and keys round trip through DER and the raw format; every accepted DER encoding is the one the exporter produces; fixed-width and DER signatures convert both ways; an imported private key without y gets g^x; the checks decide exactly the documented conditions; generated groups and keys pass them.", "quantifier": "all groups, keys, encodings, random draws, and every primality test accepting only primes", "why_tests_cant": "Key and encoding spaces are unbounded; generation consumes arbitrary random draws.", "anchors": ["src/dsa.c:dsa_group_import", "src/dsa.c:dsa_priv_export", "src/dsa.c:dsa_sig_export", "src/dsa.c:dsa_privkey_import", "src/dsa.c:dsa_group_generate", "src/dsa.c:dsa_priv_create"]}
{"id": "C78", "title": "Scalar multiplication computes multiples in every context", "statement": "For every curve with valid constants the tables of wei_init can be built, and in every context reached from it by any number of wei_randomize calls, base-point (fixed-window, blinded), variable-point (windowed or endomorphism-split), double (joint sparse form or NAF) and multi-scalar multiplication return exactly the corresponding multiples and sums of the group law.", "quantifier": "all curves, contexts, blinding factors, points, scalars below the order, list lengths", "why_tests_cant": "The blinding factor is random and the scalar and point spaces are astronomically large; a wrong table entry or recoding corner case is hit with negligible probability.", "anchors": ["src/ecc.c:wei_init", "src/ecc.c:wei_randomize", "src/ecc.c:wei_mul_g", "src/ecc.c:wei_mul", "src/ecc.c:wei_mul_double_var", "src/ecc.c:wei_mul_multi_var"]}
{"id": "C79", "title": "Edwards points have exactly one accepted encoding", "statement": "On every complete twisted Edwards curve whose prime is 3 mod 4 or 5 mod 8, importing a string of the encoded length always answers, accepts exactly the RFC 8032 encodings of curve points (so y below p and no negative zero), yields that point, and exporting it returns the same string.", "quantifier": "all curves, all strings of the encoded length, all points and projective representations", "why_tests_cant": "Non-canonical and off-curve encodings are a vanishing or half fraction of the space that vectors barely sample.", "anchors": ["src/ecc.c:xge_import", "src/ecc.c:xge_export", "src/ecc.c:xge_set_y"]}
{"id": "C80", "title": "EdDSA domain strings separate variants and contexts", "statement": "Two hash inputs carrying a domain string are equal only if their prehash flags, contexts and remainders are; the code hashes exactly that domain string.", "quantifier": "all contexts, flags and messages", "why_tests_cant": "Injectivity over all pairs of inputs.", "anchors": ["src/ecc.c:eddsa_hash_init"]}
{"id": "C81", "title": "ECDH on Montgomery curves is x([clamp k]P) for every public key", "statement": "On every Montgomery curve with odd prime-order base point, a power-of-two cofactor and computable roots: clamping gives the RFC 7748 scalar; the x-only ladder multiplies every point (on the curve or any twist) by every clamped scalar; ecdh_derive returns the encoded x coordinate of that multiple for every public key, canonical or not, and reports infinity (in particular every small-order key) with a zero secret; ecdh_pubkey_create returns x([clamp k]G) and its assertion fails exactly when n divides the clamped scalar; verify, is_small, has_torsion and export decide what they claim.", "quantifier": "all fields, curves, private keys, public keys and twists", "why_tests_cant": "Exceptional ladder inputs (x = 0, small order, twist points, scalars multiple of n) have negligible probability under random testing.", "anchors": ["src/ecc.c:mont_mul", "src/ecc.c:pge_ladder", "src/ecc.c:mont_clamp", "src/ecc.c:ecdh_pubkey_create", "src/ecc.c:ecdh_derive", "src/ecc.c:ecdh_pubkey_is_small", "src/ecc.c:ecdh_pubkey_has_torsion", "src/ecc.c:ecdh_pubkey_export"]}
{"id": "C82", "title": "Montgomery and Edwards forms and keys convert into each other without loss", "statement": "For every complete twisted Edwards curve edwards_init_isomorphism succeeds and yields a Montgomery curve linked to it; for linked curves, inverted or not, the two maps are inverse group isomorphisms including all exceptional points, and mont_to_edwards and edwards_to_mont compute them for every projective representation. The 448-bit branch computes the 4-isogenies of RFC 7748 section 4.2, whose images lie on the curves. eddsa_pubkey_convert accepts exactly the encodings of points other than zero and returns the Montgomery coordinate; ecdh_pubkey_convert accepts exactly the keys with a point on the curve and returns one of its two Edwards points, with the sign asked for; the two conversions undo each other.", "quantifier": "all primes above 3, all complete Edwards curves and linked Montgomery curves, all points and representations, all key strings and signs", "why_tests_cant": "The exceptional points (infinity, the two-torsion point, x = 0) are a handful in a group of 2^250 elements.", "anchors": ["src/ecc.c:mont_to_edwards", "src/ecc.c:edwards_to_mont", "src/ecc.c:edwards_init_isomorphism", "src/ecc.c:ecdh_pubkey_convert", "src/ecc.c:eddsa_pubkey_convert"]}
{"id": "C83", "title": "Maps to curves land on the curve, and their inverses and hashes undo them", "statement": "For every field element u, mont_elligator2, edwards_elligator2, wei_sswu and wei_svdw return a point on the curve whose abscissa is the one their specifications choose and whose ordinate has the parity of u. Whenever an inverse map succeeds with u other than 0, for any hint, the map sends u to the point it was given; Elligator's inverse finds every preimage with 1 + z u^2 other than 0. Octets from *_point_to_uniform have the field's size and *_point_from_uniform maps them to the point plus the torsion point of the hint, whatever bits of the hint fill the top octet; *_point_from_hash always yields a point on the curve, and maps a string from *_point_to_hash to the point plus the torsion point.", "quantifier": "all primes above 3 that are 3 mod 4 or 5 mod 8, all curves with constants fit for the map, all field elements, points, hints, strings and sequences of random draws", "why_tests_cant": "The exceptional inputs (u = 0, a vanishing denominator, two-torsion draws) have probability about 2^-255 under random testing.", "anchors": ["src/ecc.c:mont_elligator2", "src/ecc.c:mont_invert2", "src/ecc.c:edwards_elligator2", "src/ecc.c:edwards_invert2", "src/ecc.c:wei_sswu", "src/ecc.c:wei_sswui", "src/ecc.c:wei_svdwf", "src/ecc.c:wei_svdwi", "src/ecc.c:wei_point_to_uniform", "src/ecc.c:mont_point_to_uniform", "src/ecc.c:edwards_point_to_uniform", "src/ecc.c:wei_point_to_hash", "src/ecc.c:mont_point_to_hash", "src/ecc.c:edwards_point_to_hash"]}
{"id": "C84", "title": "Kronecker and Legendre symbols", "statement": "mpz_kronecker is defined for all integers. On y = +-2^e times odd primes it is the product of the symbols of x over -1, 2 and the primes (with the symbols over odd primes those of Legendre); over 0 it is 1 for x = 1 or -1 and 0 otherwise. It is multiplicative in both arguments away from 0, takes only the values -1, 0, 1, is 0 exactly when the arguments have a common divisor, and agrees with mpz_jacobi on odd y. mpz_legendre gives Legendre's symbol at every odd prime and aborts exactly on negative or even moduli.", "quantifier": "all integers of any size and sign", "why_tests_cant": "The value depends on signs, powers of two and residues modulo 8 at once, over unbounded integers; tests compare a few hundred vectors.", "anchors": ["src/mpi.c:mpz_kronecker", "src/mpi.c:mpz_legendre"]}
{"id": "C85", "title": "Random integers are unbiased", "statement": "mpz_urandomm returns the first draw that, with the spare bits of its top limb dropped, lies below |x|, with the sign of x, and 0 for x = 0. Every value below |x| is left by exactly the same number 2^s of draws, and at least half of all draws are accepted. mpz_urandomb returns the low bits of its draw, for every number of bits.", "quantifier": "all limb sizes, bounds of any size and sign, all sequences of draws", "why_tests_cant": "Bias is a statement about all draws; sampling cannot tell a uniform distribution from one that never hits a given value.", "anchors": ["src/mpi.c:mpn_randomm", "src/mpi.c:mpz_urandomm", "src/mpi.c:mpz_urandomb"]}
{"id": "C86", "title": "Public keys by coordinates and sums of x-only keys", "statement": "ecdsa_pubkey_import and bip340_pubkey_import accept strings of any length exactly when they are the coordinates of a point on the curve (with an empty second string: when there is a point with the first coordinate and the given parity) and return its encoding; ecdsa_pubkey_export and bip340_pubkey_export return the coordinates of every key and fail on every other string; exporting and importing gives the key back. ecdsa_privkey_import accepts exactly the values from 1 to n - 1. bip340_pubkey_add and bip340_pubkey_combine return the x coordinate of the sum of the even points, fail exactly when it is the point at infinity, and fail when one of the strings is no key. ecdh_pubkey_import and eddsa_pubkey_import accept little-endian strings of any length exactly when they are the coordinates of a point on the curve (with one of them missing: when there is a point with the other one, of the given parity) and return its key.", "quantifier": "all Weierstrass, Montgomery and Edwards curves of the stated kind, all octet strings of any length, all lists of keys", "why_tests_cant": "Leading zeros, empty strings, out-of-range values and cancelling keys combine; tests check one of each.", "anchors": ["src/ecc.c:ecdsa_pubkey_import", "src/ecc.c:ecdsa_pubkey_export", "src/ecc.c:bip340_pubkey_import", "src/ecc.c:bip340_pubkey_export", "src/ecc.c:bip340_pubkey_add", "src/ecc.c:bip340_pubkey_combine", "src/ecc.c:fe_import_pad", "src/ecc.c:ecdh_pubkey_import", "src/ecc.c:eddsa_pubkey_import", "src/ecc.c:byte_pad_le"]}
{"id": "C87", "title": "Key generation and grinding", "statement": "ecdsa_privkey_generate returns the first draw of HMAC-DRBG with SHA-256 over the entropy, cut to the bits of n, that lies between 1 and n - 1. ecdsa_pubkey_grind and bip340_pubkey_grind return the number of steps k (modulo n, whatever the limb size at which the counter is carried into the scalar) to the first of Q + G, Q + 2G, ... whose octets pass the callback, and refuse strings that are no key. ecdsa_privkey_grind and bip340_privkey_grind never fail a check, and a secret that they return is valid and its public key passes the callback.", "quantifier": "all curves, contexts, callbacks, entropies, limb sizes and numbers of steps", "why_tests_cant": "The counter is carried into the scalar only after 2^64 - 1 steps, and the sum may pass through infinity and wrap around n.", "anchors": ["src/ecc.c:ecdsa_privkey_generate", "src/ecc.c:ecdsa_privkey_grind", "src/ecc.c:ecdsa_pubkey_grind", "src/ecc.c:bip340_privkey_grind", "src/ecc.c:bip340_pubkey_grind", "src/ecc.c:sc_random"]}
{"id": "C88", "title": "Misuse of cipher streams is refused", "statement": "After any sequence of calls on a cipher stream, only a stream opened for encryption in GCM, CCM or EAX gives a tag, only after it was finished, and never an empty one; only a stream opened for decryption in these modes takes a tag. A decrypting stream of these modes never finishes with success unless a non-empty tag was set, and the tag compared is the last one set. Padding cannot be switched in other modes than ECB, CBC, CTS and XTS, and a decrypting or stealing stream with padding on refuses to switch it once it has been given any data, whatever calls follow.", "quantifier": "all ciphers, modes, keys, initialization vectors and all finite sequences of calls with any arguments", "why_tests_cant": "Tests use the calls in their intended order; the claim is about every order.", "anchors": ["src/cipher.c:cipher_stream_set_padding", "src/cipher.c:cipher_stream_set_tag", "src/cipher.c:cipher_stream_get_tag", "src/cipher.c:cipher_stream_final", "src/cipher.c:cipher_mode_verify"]}
{"id": "C89", "title": "The cipher dispatch gives block ciphers to every stream", "statement": "cipher_init accepts exactly the keys of the lengths of each of the 24 ciphers (1 to 128 octets for ARC2, 1 to 72 for Blowfish, one length for the others), among them cipher_key_size, and never aborts. A context that it sets up never reaches the aborting case of cipher_encrypt or cipher_decrypt; both send blocks of cipher_block_size octets to such blocks and undo each other. Hence for every cipher, every mode without authentication and either padding, what one stream encrypts in any pieces another decrypts to the message in any pieces. The AES entries compute the cipher and inverse cipher of FIPS 197; the ARC2 variants of 40, 64 and 128 bits set up the schedule of general ARC2 on the same key, and the two Gutmann variants share theirs.", "quantifier": "all 24 ciphers, all keys, blocks, modes, initialization vectors, messages and cuttings", "why_tests_cant": "Each cipher is tested with a few keys and modes; the table has 24 entries, 11 modes and variable key lengths.", "anchors": ["src/cipher.c:cipher_key_size", "src/cipher.c:cipher_block_size", "src/cipher.c:cipher_init", "src/cipher.c:cipher_encrypt", "src/cipher.c:cipher_decrypt"]}
{"id": "C90", "title": "Generated and ground ECDH keys are clamped and pass their check", "statement": "ecdh_privkey_generate gives the first output of HMAC-DRBG with SHA-256 over the first 32 octets of entropy, clamped as in RFC 7748; it is stored in full, is a multiple of the cofactor with the top bit set, and is the scalar that ECDH uses. ecdh_privkey_grind gives the first of the successive clamped outputs whose public key the callback takes, and that is the key that ecdh_pubkey_create computes. Its assertion fails exactly when a secret without a public key is drawn first, which cannot happen when h n has more bits than the field, as for X25519.", "quantifier": "all Montgomery curves satisfying good_mont, all entropy, all callbacks, any number of candidates", "why_tests_cant": "Tests draw a few keys; the first passing candidate and the failing assertion depend on the entropy and the callback.", "anchors": ["src/ecc.c:ecdh_privkey_generate", "src/ecc.c:ecdh_privkey_grind"]}
{"id": "C91", "title": "Generated and ground EdDSA keys are the first outputs that pass", "statement": "eddsa_privkey_generate gives the first output of HMAC-DRBG with SHA-256 over the first 32 octets of entropy, of the length of an RFC 8032 key. eddsa_scalar_generate gives such an output of the octets of the order, clamped: a multiple of the cofactor with the top bit set, which clamping leaves alone. eddsa_privkey_grind gives the first of the successive outputs whose RFC 8032 public key the callback takes, and that is the key that eddsa_pubkey_create computes; no assertion fails.", "quantifier": "all Edwards curves satisfying good_ed, all contexts, entropy and callbacks, any number of candidates", "why_tests_cant": "Tests draw a few keys; the first passing candidate depends on the entropy and the callback.", "anchors": ["src/ecc.c:eddsa_privkey_generate", "src/ecc.c:eddsa_privkey_grind", "src/ecc.c:eddsa_scalar_generate"]}
{"id": "C92", "title": "Ristretto private keys are scalars, and grinding returns the tweak it found", "statement": "The private keys of the ristretto group are the little endian strings of a number below n: verify, is_zero, export and import accept and return exactly these; tweak_add, tweak_mul, negate and invert compute modulo n, refuse what is not below n, and tweak_mul refuses exactly the products that are zero; from_uniform reduces twice as many octets; ristretto_privkey_generate gives the first draw of HMAC-DRBG in 1..n-1. ristretto_pubkey_grind returns the least k >= 1, modulo n, such that the callback takes the encoding of A + kG.", "quantifier": "all Edwards curves satisfying good_ed, all contexts, strings, entropy, callbacks, encodings, limb sizes and contents of uninitialized memory", "why_tests_cant": "No test calls ristretto_pubkey_grind, and stack memory is often zero when one would; the operations have as many inputs as the group has elements.", "anchors": ["src/ecc.c:ristretto_privkey_generate", "src/ecc.c:ristretto_privkey_from_uniform", "src/ecc.c:ristretto_privkey_verify", "src/ecc.c:ristretto_privkey_import", "src/ecc.c:ristretto_privkey_tweak_add", "src/ecc.c:ristretto_privkey_tweak_mul", "src/ecc.c:ristretto_privkey_negate", "src/ecc.c:ristretto_privkey_invert", "src/ecc.c:ristretto_pubkey_grind"]}
{"id": "C93", "title": "Ristretto comparisons are equality of cosets", "statement": "With cofactor 4, or with cofactor 8 and a = -1, rge_equal holds of two points exactly when h / 2 times their difference is the neutral element, and rge_is_zero exactly when h / 2 times the point is; so rge_equal is an equivalence relation that sums and negation respect, rge_is_zero is equality with the neutral element, and on points of odd order rge_equal is equality of points.", "quantifier": "all primes p, complete Edwards curves over Z/p, points, projective representations and contexts with cofactor 4, or 8 and a = -1", "why_tests_cant": "Tests compare a few multiples of one generator; equality of all representatives of all cosets, and difference of all others, is a statement about the whole group.", "anchors": ["src/ecc.c:rge_equal", "src/ecc.c:rge_is_zero"]}
{"id": "C94", "title": "Ristretto decoding accepts one string per coset and gives its point", "statement": "rge_import accepts a string exactly when it is a canonical even s for which the curve has a point with y = (1 + a s^2) / (1 - a s^2) and x even, and with cofactor 8 also x y even and y nonzero; it returns that point, which is the only one. Two strings that decode into the same coset of the points killed by h / 2 are the same string, so rge_equal of two decoded elements holds exactly when their strings are equal; zeros decode to the neutral element.", "quantifier": "all primes p = 3 mod 4 or 5 mod 8, complete Edwards curves over Z/p with a = 1 or a = -1 and a d - 1 a square, contexts with cofactor 4, or 8 and a = -1, and all strings", "why_tests_cant": "Malleable encodings show only on particular strings among 2^256; tests decode a few dozen vectors.", "anchors": ["src/ecc.c:rge_import", "src/ecc.c:fe_rsqrt", "src/ecc.c:rge_equal"]}
